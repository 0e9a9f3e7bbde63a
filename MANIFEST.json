{
 "claims": [
  {
   "property": "C01",
   "status": "proved",
   "theorems": [
    "C01_wildcard_intersect_is_packet_intersection",
    "C01_match_overlaps"
   ],
   "note": ""
  },
  {
   "property": "C02",
   "status": "proved",
   "theorems": [
    "C02_is_subset_decides_inclusion",
    "C02_match_issubset"
   ],
   "note": ""
  },
  {
   "property": "C03",
   "status": "proved",
   "theorems": [
    "C03_union_cover_least",
    "C03_match_union_cover"
   ],
   "note": ""
  },
  {
   "property": "C04",
   "status": "proved",
   "theorems": [
    "C04_wildcard_of_match",
    "C04_match_get_wildcard"
   ],
   "note": ""
  },
  {
   "property": "C05",
   "status": "proved",
   "theorems": [
    "C05_wildcard_match_round_trip",
    "C05_padding_constrained"
   ],
   "note": ""
  },
  {
   "property": "C06",
   "status": "partial",
   "theorems": [
    "C06_disjoint_intersection_refuted",
    "C06_intersection_partial"
   ],
   "note": "False of the code: intersecting disjoint matches raises KeyError. The partial theorem says exactly when."
  },
  {
   "property": "C07",
   "status": "proved",
   "theorems": [
    "C07_morton_interleaves",
    "C07_RMorton_inverts",
    "C07_RMorton_total"
   ],
   "note": ""
  },
  {
   "property": "C08",
   "status": "proved",
   "theorems": [
    "C08_wildcards_canonical"
   ],
   "note": ""
  },
  {
   "property": "C09",
   "status": "proved",
   "theorems": [
    "C09_match_bookkeeping"
   ],
   "note": ""
  },
  {
   "property": "C10",
   "status": "partial",
   "theorems": [
    "C10_headerspace_denotation_partial",
    "C10_intersect",
    "C10_diff",
    "C10_clean_up",
    "C10_is_empty_complete_refuted"
   ],
   "note": "Denotations and soundness of is_empty proved; completeness of is_empty is false of the code (witness: everything minus its two halves)."
  },
  {
   "property": "C11",
   "status": "proved",
   "theorems": [
    "C11_wc_to_BDD_is_the_match",
    "C11_cbdd_builds_the_same",
    "C11_cudd_wc_to_BDD_is_the_match",
    "C11_empty_wildcard",
    "C11_z_tbit_is_rejected"
   ],
   "note": ""
  },
  {
   "property": "C12",
   "status": "proved",
   "theorems": [
    "C12_meld_is_priority_union",
    "C12_cudd_meld_is_priority_union"
   ],
   "note": ""
  },
  {
   "property": "C13",
   "status": "proved",
   "theorems": [
    "C13_subtract_and_intersection_are_pointwise",
    "C13_cudd_subtract_and_intersection_are_pointwise",
    "C13_truth_value",
    "C13_len_counts_distinct_nodes"
   ],
   "note": ""
  },
  {
   "property": "C14",
   "status": "proved",
   "theorems": [
    "C14_equality_is_semantic",
    "C14_api_meaning",
    "C14_cudd_equality_is_semantic",
    "C14_cudd_operations_stay_reduced"
   ],
   "note": ""
  },
  {
   "property": "C15",
   "status": "proved",
   "theorems": [
    "C15_caches_are_transparent",
    "C15_history_is_irrelevant",
    "C15_lru_is_a_policy",
    "C15_default_recursion_limit_refuted"
   ],
   "note": "Every program of engine calls, every eviction policy. Assumes 1586 stack frames for the recursion; with the default CPython limit of 1000 a RecursionError is possible (refuted theorem)."
  },
  {
   "property": "C16",
   "status": "partial",
   "theorems": [
    "C16_difference_exact_refuted",
    "C16_difference_sound_partial",
    "C16_difference_exact_partial",
    "C16_empty_difference_means_equal"
   ],
   "note": "False in general: where the first table is undefined in a whole region the difference over-reports. Soundness, exactness under an inclusion of domains, and empty-iff-equal are proved."
  },
  {
   "property": "C17",
   "status": "proved",
   "theorems": [
    "C17_difftagged_carries_both_actions",
    "C17_difftagged_empty_iff_equal",
    "C17_terminal_packing_injective",
    "C17_terminal_fits_a_double",
    "C17_action_ids"
   ],
   "note": ""
  },
  {
   "property": "C18",
   "status": "proved",
   "theorems": [
    "C18_BDD_to_wcs_partitions",
    "C18_cudd_to_wcs_partitions",
    "C18_iterator_length"
   ],
   "note": ""
  },
  {
   "property": "C19",
   "status": "proved",
   "theorems": [
    "C19_backends_agree",
    "C19_backends_enumerate_the_same",
    "C19_builders_agree"
   ],
   "note": ""
  },
  {
   "property": "C20",
   "status": "proved",
   "theorems": [
    "C20_naive_is_first_match",
    "C20_prescription_unique",
    "C20_mixed_tables_rejected"
   ],
   "note": ""
  },
  {
   "property": "C21",
   "status": "proved",
   "theorems": [
    "C21_divide_and_conquer_agrees",
    "C21_empty_ruleset",
    "C21_merge_loop_terminates"
   ],
   "note": "Both modes (with and without match_redundancy)."
  },
  {
   "property": "C22",
   "status": "proved",
   "theorems": [
    "C22_check_equal_decides",
    "C22_check_equal_decides_dc",
    "C22_equal_tables_forward_alike"
   ],
   "note": "CUDD backend, 30-bit Python digits (even digit size)."
  },
  {
   "property": "C23",
   "status": "proved",
   "theorems": [
    "C23_grouping_is_exact",
    "C23_same_line_iff_equal"
   ],
   "note": ""
  },
  {
   "property": "C24",
   "status": "partial",
   "theorems": [
    "C24_collect_paths_partition",
    "C24_repeated_paths_refuted",
    "C24_conflicting_paths_partial",
    "C24_conflicts_of_single_tables",
    "C24_sorts_first",
    "C24_difference_is_a_set_partial"
   ],
   "note": "_collect_paths proved in full. find_conflicting_paths is wrong when different original rules carry equal paths (witness) and proved when equal paths imply equal matches and no path is empty, which is proved of the outputs of to_single_table."
  },
  {
   "property": "C25",
   "status": "partial",
   "theorems": [
    "C25_eager_partial",
    "C25_eager_dc_partial",
    "C25_eager_total_tables_partial",
    "C25_miss_is_drop_refuted",
    "C25_two_copies_refuted",
    "C25_vlan_present_bit_refuted"
   ],
   "note": "Proved (sound and complete, every set iteration order, both normalisers) for rules that set header fields and output to each port once; when some packet misses, a miss is not the same as sending nothing. Each restriction is shown necessary by a refutation: miss against drop, two copies on one port, VLAN id without present bit."
  },
  {
   "property": "C26",
   "status": "partial",
   "theorems": [
    "C26_true_is_sound_partial",
    "C26_true_is_sound_dc_partial",
    "C26_returns_a_boolean_partial",
    "C26_undefined_side_refuted",
    "C26_inner_field_refuted",
    "C26_repeated_port_refuted"
   ],
   "note": "True is sound for rules that execute lists without MPLS pushes and PBB in which each port occurs once, for every visiting order of the ports; a Boolean is returned when every packet hits a rule on both sides, rules only set fields and output and no inner tag is matched. Refuted in general: TypeError where only one side has a rule, KeyError where the tables differ under an inner tag match, and True for tables of which one sends a port a second copy."
  },
  {
   "property": "C27",
   "status": "proved",
   "theorems": [
    "C27_equal_iff_swaps",
    "C27_iteration_canonical",
    "C27_append_total",
    "C27_success_is_canonical"
   ],
   "note": ""
  },
  {
   "property": "C28",
   "status": "partial",
   "theorems": [
    "C28_table_sound_refuted",
    "C28_table_sound_partial",
    "C28_equal_lists_same_effect_partial",
    "C28_iteration_same_effect_partial"
   ],
   "note": "False for PUSH_PBB/POP_PBB against VLAN and MPLS actions (nested frames); proved for every other pair and every list without such a pair."
  },
  {
   "property": "C29",
   "status": "partial",
   "theorems": [
    "C29_remove_refuted",
    "C29_remove_canonical_partial",
    "C29_copy_partial"
   ],
   "note": "remove() loses an action when the actions were not appended in canonical order (witness); right for canonical order, and copy() with none or several removals is always right."
  },
  {
   "property": "C30",
   "status": "partial",
   "theorems": [
    "C30_duplicate_port_refuted",
    "C30_select_group_refuted",
    "C30_mpls_refuted",
    "C30_equal_per_output_partial",
    "C30_per_output_meaning_partial",
    "C30_value_equality"
   ],
   "note": "False when a port is written twice, for select groups and for MPLS push/pop; proved for each port at most once, all/indirect groups nested to any depth, no PUSH_MPLS/PUSH_PBB/POP_PBB."
  },
  {
   "property": "C31",
   "status": "partial",
   "theorems": [
    "C31_mpls_refuted",
    "C31_mpls_ttl_refuted",
    "C31_same_effect_partial",
    "C31_terminates"
   ],
   "note": "False for MPLS push/pop pairs; effect preserved for lists without PUSH_MPLS/PUSH_PBB/POP_PBB with outputs last; termination proved for all lists of known actions."
  },
  {
   "property": "C32",
   "status": "proved",
   "theorems": [
    "C32_action_set",
    "C32_total"
   ],
   "note": ""
  },
  {
   "property": "C33",
   "status": "proved",
   "theorems": [
    "C33_merge",
    "C33_merge_assoc",
    "C33_merge_total"
   ],
   "note": ""
  },
  {
   "property": "C34",
   "status": "proved",
   "theorems": [
    "C34_merged_match",
    "C34_merge_succeeds"
   ],
   "note": "Rules whose apply-actions do not push or pop tags."
  },
  {
   "property": "C35",
   "status": "proved",
   "theorems": [
    "C35_metadata_composes",
    "C35_merged_rule_metadata"
   ],
   "note": ""
  },
  {
   "property": "C36",
   "status": "partial",
   "theorems": [
    "C36_merged_rule_runs_both_partial",
    "C36_meter_refuted"
   ],
   "note": "Proved for rules without tag push/pop; the meter instruction is dropped by the merge (witness)."
  },
  {
   "property": "C37",
   "status": "proved",
   "theorems": [
    "C37_lexicographic",
    "C37_scaling_total",
    "C37_merge_adds"
   ],
   "note": ""
  },
  {
   "property": "C38",
   "status": "partial",
   "theorems": [
    "C38_single_table_partial",
    "C38_conversion_total",
    "C38_no_misses",
    "C38_miss_refuted",
    "C38_incomplete_default_refuted"
   ],
   "note": "Proved for rules without tag push/pop when a table with a priority-0 rule matches every packet; a table miss executes the action set (the standard drops: refuted), and a partial priority-0 rule suppresses the default (refuted)."
  },
  {
   "property": "C39",
   "status": "partial",
   "theorems": [
    "C39_every_packet_matched_partial",
    "C39_every_packet_matched_refuted"
   ],
   "note": "False when a table has a priority-0 rule that does not match everything (witness); proved otherwise."
  },
  {
   "property": "C40",
   "status": "partial",
   "theorems": [
    "C40_priority_order_partial",
    "C40_distinct_priorities",
    "C40_ties_refuted"
   ],
   "note": "With ties among overlapping rules re-sorting changes the rule hit (witness); proved without such ties."
  },
  {
   "property": "C41",
   "status": "partial",
   "theorems": [
    "C41_demote_promote_partial",
    "C41_promote_reports",
    "C41_depth_reported_partial",
    "C41_depth_error_refuted",
    "C41_restore_refuted"
   ],
   "note": "False: UnboundLocalError instead of OverflowError; a match on two levels is not restored (witnesses)."
  },
  {
   "property": "C42",
   "status": "partial",
   "theorems": [
    "C42_egress_sound_partial",
    "C42_no_overlap_no_hit_partial",
    "C42_unknown_tag_refuted",
    "C42_pop_order_refuted"
   ],
   "note": "Proved for rules whose tag operations only copy known values; false otherwise (two witnesses). Deeper tags than the model header are arbitrary."
  },
  {
   "property": "C43",
   "status": "proved",
   "theorems": [
    "C43_direct_dependencies",
    "C43_builds",
    "C43_returns_refuted"
   ],
   "note": "Exact for every run that returns, on every table; a run can raise when a lowest-priority rule pushes more tags than the header has (witness)."
  },
  {
   "property": "C44",
   "status": "proved",
   "theorems": [
    "C44_spaces_partition"
   ],
   "note": ""
  },
  {
   "property": "C45",
   "status": "partial",
   "theorems": [
    "C45_incremental_partial",
    "C45_second_match_all_refuted"
   ],
   "note": "Proved when the default is the only rule matching everything, and then for tables whose equal-priority rules are disjoint (weaker than distinct priorities). As stated it is refuted: a second match-all rule is taken for the default."
  },
  {
   "property": "C46",
   "status": "proved",
   "theorems": [
    "C46_direct",
    "C46_direct_wildcards",
    "C46_indirect",
    "C46_same_as_general",
    "C46_empty_default_refuted"
   ],
   "note": "Both builders, BDD and wildcard variants, for all tables of distinct prefixes with a 0.0.0.0/0 rule, and agreement with the general builders. A default with an empty match is a KeyError (witness)."
  },
  {
   "property": "C47",
   "status": "proved",
   "theorems": [
    "C47_indirect_dependencies",
    "C47_variants_agree",
    "C47_direct_is_indirect"
   ],
   "note": ""
  },
  {
   "property": "C48",
   "status": "partial",
   "theorems": [
    "C48_headerspace_partial",
    "C48_never_misses",
    "C48_same_edges_refuted"
   ],
   "note": "No edge is missed and every reported space is exact; the edges are not the same: the headerspace variant also reports edges with an empty space (witness)."
  },
  {
   "property": "C49",
   "status": "partial",
   "theorems": [
    "C49_groups",
    "C49_total_partial",
    "C49_total_refuted"
   ],
   "note": "Coarsest partition into groups of similar rules with the same dependencies, for all rulesets where it returns; it raises a TypeError (witness) exactly in sorts that meet two alike rules of which one sets a field the other does not. Actions are the 16 of OpenFlow 1.3."
  },
  {
   "property": "C50",
   "status": "proved",
   "theorems": [
    "C50_representatives"
   ],
   "note": "For every iteration order, every run that returns. The dependencies are any list over the rules."
  },
  {
   "property": "C51",
   "status": "proved",
   "theorems": [
    "C51_simplify"
   ],
   "note": "All acyclic graphs without duplicate edges; recursion deeper than the number of nodes is not needed."
  },
  {
   "property": "C52",
   "status": "proved",
   "theorems": [
    "C52_letters",
    "C52_order",
    "C52_bijection",
    "C52_upper"
   ],
   "note": ""
  },
  {
   "property": "C53",
   "status": "partial",
   "theorems": [
    "C53_limit",
    "C53_untouched",
    "C53_percentage",
    "C53_no_maximum_refuted"
   ],
   "note": "The bounds are proved for integer max_res; the documented max_res=None raises TypeError (witness)."
  },
  {
   "property": "C54",
   "status": "proved",
   "theorems": [
    "C54_ethernet",
    "C54_ipv4",
    "C54_masked",
    "C54_masked_ethernet"
   ],
   "note": ""
  },
  {
   "property": "C55",
   "status": "partial",
   "theorems": [
    "C55_round_trip_refuted",
    "C55_parse_partial"
   ],
   "note": "False for every address: the formatter writes sixteen groups of two digits, which the parser does not read back. The parser alone is right on eight-group texts."
  },
  {
   "property": "C56",
   "status": "proved",
   "theorems": [
    "C56_longest_prefix"
   ],
   "note": ""
  },
  {
   "property": "C57",
   "status": "partial",
   "theorems": [
    "C57_unique_partial",
    "C57_reuse_refuted"
   ],
   "note": "Proved for programs that create a new object per with statement; false when one object is entered twice (witness)."
  },
  {
   "property": "C58",
   "status": "proved",
   "theorems": [
    "C58_field_ids"
   ],
   "note": ""
  },
  {
   "property": "C59",
   "status": "proved",
   "theorems": [
    "C59_sound",
    "C59_exact",
    "C59_cells",
    "C59_total",
    "C59_empty",
    "C59_complete_refuted"
   ],
   "note": "True means every packet is treated alike, for every iteration order of the sets; C59_exact says what is compared. The converse is not claimed and is refuted; an empty ruleset raises KeyError (C59_empty)."
  },
  {
   "property": "C60",
   "status": "partial",
   "theorems": [
    "C60_reverse_partial",
    "C60_value",
    "C60_python3_refuted",
    "C60_mask_refuted",
    "C60_write_refuted"
   ],
   "note": "Fails on Python 3; on Python 2 masks are computed from the value and write_actions are left alone (witnesses). Proved for exact matches and apply_actions without ethertype pushes, PBB and groups."
  },
  {
   "property": "C61",
   "status": "proved",
   "theorems": [
    "C61_stable_priority_sort"
   ],
   "note": ""
  },
  {
   "property": "C62",
   "status": "proved",
   "theorems": [
    "C62_path_is_route",
    "C62_paths_tell_rules_apart"
   ],
   "note": "Rules without tag push/pop; a table with a priority-0 rule matches every packet."
  },
  {
   "property": "C63",
   "status": "proved",
   "theorems": [
    "C63_equal_means_same_forwarding",
    "C63_equal_means_same_forwarding_no_misses"
   ],
   "note": "Same conditions as C38 and C30 (plain actions, each port once)."
  },
  {
   "property": "C64",
   "status": "partial",
   "theorems": [
    "C64_compressed_partial",
    "C64_compressed_refuted"
   ],
   "note": "Seven groups with a leading or trailing \"::\" raise AssertionError (witness); proved for all other compressed texts."
  },
  {
   "property": "C65",
   "status": "partial",
   "theorems": [
    "C65_decimal",
    "C65_hex_partial",
    "C65_ipv4",
    "C65_ethernet",
    "C65_hex_refuted"
   ],
   "note": "Negative hex values are refuted (witness), everything else proved."
  },
  {
   "property": "C66",
   "status": "proved",
   "theorems": [
    "C66_insertion_exact"
   ],
   "note": ""
  },
  {
   "property": "C67",
   "status": "proved",
   "theorems": [
    "C67_direct_ruleset",
    "C67_direct_ruleset_incremental",
    "C67_backward_goto"
   ],
   "note": "Rules with a goto must not push or pop tags; the incremental builder needs a unique default rule per table and disjoint rules of equal priority (see C45)."
  },
  {
   "property": "C68",
   "status": "partial",
   "theorems": [
    "C68_indirect_ruleset",
    "C68_direct_included",
    "C68_missing_table_refuted"
   ],
   "note": "Exact when every goto leads to a table that has rules; otherwise RuntimeError (witness). Rules with a goto must not push or pop tags."
  },
  {
   "property": "C69",
   "status": "partial",
   "theorems": [
    "C69_dependencies",
    "C69_compress_ruleset",
    "C69_total_refuted",
    "C69_no_choice"
   ],
   "note": "Proved for every run that returns. Totality is refuted: on a ruleset of seven rules no choice exists and the code ends in an ImportError."
  },
  {
   "property": "C70",
   "status": "partial",
   "theorems": [
    "C70_children_below",
    "C70_highest",
    "C70_empty",
    "C70_ruleset_drawing",
    "C70_push_down_lowest_refuted"
   ],
   "note": "All flags and groupings; positions are exact rationals where the code uses floats. push_down moves a node down one level only, so \"as low as possible\" is refuted; an empty graph raises StopIteration (C70_empty)."
  },
  {
   "property": "C71",
   "status": "proved",
   "theorems": [
    "C71_compress_wildcard_list"
   ],
   "note": "All lists of proper wildcards."
  },
  {
   "property": "C72",
   "status": "partial",
   "theorems": [
    "C72_to_string",
    "C72_injective",
    "C72_padding",
    "C72_z_partial",
    "C72_z_refuted"
   ],
   "note": "Proved for proper wildcards and for closed padding. A z is reported when a higher tbit of its field is not z (C72_z_partial); one at the top of its field is dropped silently (refuted with a witness)."
  },
  {
   "property": "C73",
   "status": "partial",
   "theorems": [
    "C73_round_trip_partial",
    "C73_one_byte",
    "C73_two_bytes",
    "C73_round_trip_refuted",
    "C73_reads_back_refuted",
    "C73_unknown_field",
    "C73_metadata"
   ],
   "note": "Proved for rulesets in which no value, written as bytes, looks like the text of an address (five or seven colons, \"::\", three dots, five dashes) and masked values have no bits outside the mask. Refuted in general: normalise_bytes reads the raw bytes of TCP port 14906 (0x3a3a, \"::\") as the IPv6 address 0, and those of 58.58.1.2 raise ValueError. Ryu objects are modelled by their contract."
  },
  {
   "property": "C74",
   "status": "partial",
   "theorems": [
    "C74_references",
    "C74_numbers_partial",
    "C74_numbers_refuted",
    "C74_no_pattern",
    "C74_unbound"
   ],
   "note": "References and meaning for all nestings. Numbers are distinct for up to 65536 groups numbered by the counter; refuted for interface groups, which can collide with counted ones. Without a Table Type Pattern every Group object raises AttributeError (C74_no_pattern)."
  },
  {
   "property": "C75",
   "status": "partial",
   "theorems": [
    "C75_ovs_round_trip_partial",
    "C75_ovs_rule_round_trip_partial",
    "C75_ipv6_refuted",
    "C75_written_refuted",
    "C75_vlan_refuted",
    "C75_cookie_refuted",
    "C75_meter_lost"
   ],
   "note": "Proved for all rules with a cookie and without a meter over 33 fields and the actions that are written. False outside: IPv6 addresses come back as other numbers, IPV6_FLABEL, groups and TTL copies raise NotImplementedError, the CFI bit of a VLAN id set by set_field, the cookie None and the meter are lost."
  },
  {
   "property": "C76",
   "status": "partial",
   "theorems": [
    "C76_flow_read_partial",
    "C76_resubmit_refuted",
    "C76_unknown_action_refuted",
    "C76_prefix_refuted",
    "C76_vlan_tci_refuted",
    "C76_ports_refuted",
    "C76_port_name_refuted",
    "C76_tos_refuted"
   ],
   "note": "Proved for every line of the grammar of SpecOvs.v whose actions ActionList and ActionSet accept, in every table of groups. The parts of the documented syntax that are read as something else are refuted by witnesses: resubmit with two digits, unknown actions end the line, short IPv6 prefixes, vlan_tci, tp_dst of UDP, port names in a match, mod_nw_tos."
  },
  {
   "property": "C77",
   "status": "partial",
   "theorems": [
    "C77_file_read_partial",
    "C77_group_read_partial",
    "C77_no_bucket_refuted",
    "C77_forward_refuted",
    "C77_bare_bucket_refuted"
   ],
   "note": "Proved for every file whose groups use only groups on earlier lines and have at least one bucket, each with \"actions=\". Refuted by witnesses: a group without buckets raises UnboundLocalError, a group that uses a later one raises KeyError, a bucket without \"actions=\" or with an upper-case action is read as empty."
  },
  {
   "property": "C78",
   "status": "partial",
   "theorems": [
    "C78_written_ovs_partial",
    "C78_dumped_ovs_partial",
    "C78_fib_partial",
    "C78_unknown_format_refuted",
    "C78_name_refuted",
    "C78_blank_line_refuted",
    "C78_gives_up",
    "C78_named_ovs",
    "C78_named_fib",
    "C78_named_other"
   ],
   "note": "Proved for written and dumped Open vSwitch files and for routing tables, when the json and pickle libraries refuse the file (contract). Refuted: the Open vSwitch loader accepts every text without flows, so text of no format, or a routing table with one bad line, loads as the empty ruleset, as does every routing table whose file name mentions ovs but not fib."
  },
  {
   "property": "C79",
   "status": "partial",
   "theorems": [
    "C79_tag_merge_partial",
    "C79_blind_push_refuted"
   ],
   "note": "Proved when both rules match on outermost tags only, every push of the first copies tags it matches on or has set (at most two deep), no pop follows two pushes, and no action sets METADATA. Every failure is characterised: a tag more than two levels deep raises UnboundLocalError, OpenFlow rules that would need an inner tag raise MergeException. Refuted for a push of a tag that is not matched on: the copy is taken to be 0 and reachable rules are lost."
  },
  {
   "property": "C80",
   "status": "proved",
   "theorems": [
    "C80_collector_frees_exactly_the_garbage",
    "C80_collecting_twice_is_idle"
   ],
   "note": "For every memory that is in order (tidy, SpecGc.v); C81 shows that every memory a program produces is."
  },
  {
   "property": "C81",
   "status": "proved",
   "theorems": [
    "C81_collector_and_caches_are_invisible",
    "C81_nothing_leaks",
    "C81_timing_of_collections_is_irrelevant"
   ],
   "note": "The C stack must have NB + 2 = 1586 frames for the recursion. Hash values and the friendly names of terminals are left out."
  },
  {
   "property": "C82",
   "status": "partial",
   "theorems": [
    "C82_threshold_partial",
    "C82_rejected_threshold_refuted"
   ],
   "note": "Proved for numbers that are not negative. Refuted for negative ones: the number is stored before it is tested, so ValueError is raised and every later operation collects."
  },
  {
   "property": "C83",
   "status": "partial",
   "theorems": [
    "C83_tag_pipeline_partial",
    "C83_covers_C38",
    "C83_lost_rule_refuted",
    "C83_equal_tables_refuted"
   ],
   "note": "Proved for rules that push and pop freely where they have no goto; a rule with a goto either has no tag operations, or (openflow=False) is in table 0, can be followed as in C79 and goes to a table without gotos. Refuted for the default openflow=True: the MergeException for a match on an inner tag is swallowed by single_table_condense, the rule is lost, and two rulesets that forward differently get equal tables."
  },
  {
   "property": "C84",
   "status": "proved",
   "theorems": [
    "C84_no_freed_node",
    "C84_equality_is_semantic",
    "C84_none_argument_refuted",
    "C84_uninitialised_argument_refuted"
   ],
   "note": "CUDD is modelled by its contract: nodes are their structure, each call that creates a node may collect all that is not below a referenced one. The statement excludes None and uninitialised BDDs as arguments; for those a NULL pointer is followed (refuted witnesses). Iterators left half way and overflow of counts are not modelled."
  },
  {
   "property": "C85",
   "status": "partial",
   "theorems": [
    "C85_references_exact",
    "C85_leak_per_exact_bit",
    "C85_all_released_partial",
    "C85_leak_without_bound",
    "C85_all_released_refuted"
   ],
   "note": "The exact multiset of outstanding references is proved for all programs: besides the module and the existing BDDs there is one for every node below the root of each BDD made from a wildcard, that is one per exact bit, and one per repeated __init__. So the claim holds only for programs without those (partial), is refuted by one BDD built and dropped, and the references grow without bound."
  },
  {
   "property": "C86",
   "status": "partial",
   "theorems": [
    "C86_what_is_read",
    "C86_when_it_succeeds",
    "C86_all_actions_partial",
    "C86_all_actions_refuted",
    "C86_unknown_action_refuted"
   ],
   "note": "What is read is proved for all flows: the definite actions, in order. Every action is kept only if all are definite (partial); refuted otherwise: setting a field to a variable, and an action the module does not know, are left out and the conversion succeeds."
  },
  {
   "property": "C87",
   "status": "partial",
   "theorems": [
    "C87_difference",
    "C87_default",
    "C87_no_report",
    "C87_paths",
    "C87_report_refuted",
    "C87_shadowed_refuted"
   ],
   "note": "When it returns, the verdict and the cells are exact, and it returns whenever both tables have a default rule. Refuted: an assert fails instead of the tuple when some packet is handled by one table only (C87_no_report: always then). The paths are complete and sound up to shadowing; refuted: paths through shadowed rules are related too (the source warns of it)."
  },
  {
   "property": "C88",
   "status": "partial",
   "theorems": [
    "C88_files_loaded",
    "C88_every_name_once",
    "C88_last_load",
    "C88_which_format",
    "C88_same_line_iff",
    "C88_same_line_same_forwarding",
    "C88_report_partial",
    "C88_report_never_fails",
    "C88_one_name",
    "C88_first_against_each_refuted",
    "C88_named_twice_refuted"
   ],
   "note": "The lines are proved exact for any number of rulesets. The report is exact for the pairs it covers when no two rules of a table tie on a common packet (partial). Refuted: it compares each line with the next one, not the first with each as the help says; a file given twice, to be read in two formats, is compared with nothing."
  },
  {
   "property": "C89",
   "status": "partial",
   "theorems": [
    "C89_sizes",
    "C89_keeps_dependencies",
    "C89_keeps_direct_dependencies",
    "C89_single",
    "C89_fib",
    "C89_fib_extra",
    "C89_saved",
    "C89_output_compressed_refuted"
   ],
   "note": "Proved for every run that returns; success is proved for routing tables (and see C90). With --direct the tables must have default rules and rules of one priority must not overlap (the builder needs it, C45), and with --headerspace --direct rules with gotos are excluded. Refuted: the file has all rules, sorted, not the compressed ones. --input-format fib with --bdd or --headerspace but not --direct always fails (C89_fib_extra). The readers and writers are arguments."
  },
  {
   "property": "C90",
   "status": "proved",
   "theorems": [
    "C90_chained",
    "C90_nested_direct",
    "C90_nested"
   ],
   "note": "Also assumes that no two rules alike differ in which fields they set (C49)."
  },
  {
   "property": "C91",
   "status": "partial",
   "theorems": [
    "C91_equal_rules_forward_alike",
    "C91_equal_rules_same_line",
    "C91_converted",
    "C91_converted_same_line"
   ],
   "note": "Equal rules are proved to forward alike when the actions executed do not combine pushing or popping a PBB tag with actions on what it hides (independent for the code, C28); converted rules need no such assumption. One line is proved for runs of check_equivalence that return, on rulesets without tag operations whose tables with a rule of priority 0 match every packet. Which fields and actions the text carries is in C75."
  },
  {
   "property": "C92",
   "status": "proved",
   "theorems": [
    "C92_always_answers",
    "C92_groups_refuted",
    "C92_dc_refuted",
    "C92_empty_file_fails"
   ],
   "note": "Proved without bounds under the stated conditions. Each condition is needed: refuted with witnesses for groups in two tables (TypeError), for the divide-and-conquer build without the condition on defaults (AssertionError where the plain build answers) and for a file without rules (AssertionError)."
  },
  {
   "property": "C93",
   "status": "partial",
   "theorems": [
    "C93_routing_tables",
    "C93_same_peers_partial",
    "C93_next_hops_refuted"
   ],
   "note": "The line printed is characterised exactly, from the text of the files to the output. What a user of routing tables means, the same next hop for every address, is proved only if the peers are numbered alike; without that it is refuted both ways by one run on three files: the same routes in another order are on different lines, and a table that sends every address to another peer is on the same line."
  },
  {
   "property": "C94",
   "status": "proved",
   "theorems": [
    "C94_convert_then_check",
    "C94_routing_table"
   ],
   "note": "Proved without bounds under the stated conditions, from the text of the files to the lines printed. The loading must leave the registry of fields as it was (true of routing tables and of rules without numbered inner tags). Outside what Open vSwitch text carries see the refutations of C75."
  },
  {
   "property": "C95",
   "status": "proved",
   "theorems": [
    "C95_compress",
    "C95_only_group",
    "C95_always_refuted"
   ],
   "note": "Proved as an exact condition, with the drawing that results. That the drawing succeeds whenever the compression does is refuted by a ruleset of four rules with its own dependencies. The labels are taken to be formatted without error and no two rules to be equal."
  },
  {
   "property": "C96",
   "status": "partial",
   "theorems": [
    "C96_routing_table",
    "C96_no_table_miss_refuted"
   ],
   "note": "Proved without bounds from the text of the table on without --no-table-miss. With --no-table-miss it is refuted: two prefixes of equal length that lie in the default route only lose their dependencies, and the command fails with a ValueError."
  },
  {
   "property": "C97",
   "status": "partial",
   "theorems": [
    "C97_handle",
    "C97_refused",
    "C97_path",
    "C97_closed",
    "C97_round_trip",
    "C97_close_refuted",
    "C97_position_refuted",
    "C97_keyword_refuted"
   ],
   "note": "Proved without bounds, by simulation with a plain file, for functions that do not close their handle, except three parts that are refuted: a function that closes a binary object opened as text gets a ValueError from detach; the position of such an object after reading is beyond where the function stopped (proved instead: what is left is a suffix of it); the readers, which are decorated without a name, fail with an IndexError if the file is passed by name. Python 3, ASCII contents."
  },
  {
   "property": "C98",
   "status": "proved",
   "theorems": [
    "C98_lines",
    "C98_unambiguous",
    "C98_path",
    "C98_odd_lines_refuted"
   ],
   "note": "Proved without bounds under the stated condition. That the condition is needed is shown by a rule with a newline in its cookie, printed without any arrow. The texts of matches and instructions are given."
  },
  {
   "property": "C99",
   "status": "proved",
   "theorems": [
    "C99_one_line",
    "C99_unambiguous",
    "C99_report",
    "C99_range_refuted"
   ],
   "note": "Proved without bounds under the stated conditions. Out of range it is refuted: two numbers of 49 bits give the same MAC address, because the last hexadecimal digit is dropped."
  },
  {
   "property": "C100",
   "status": "proved",
   "theorems": [
    "C100_shown",
    "C100_rule",
    "C100_report"
   ],
   "note": "Proved without bounds under the stated conditions. Python 3, where repr of a name puts it in single quotes (names with quotes, which repr escapes, are left out). The actions are those that iterating over the list gives, which is by dependency levels. Groups are not covered."
  },
  {
   "property": "C101",
   "status": "partial",
   "theorems": [
    "C101_binary_handle",
    "C101_path",
    "C101_text_handle",
    "C101_text_refuted",
    "C101_position_refuted"
   ],
   "note": "Proved without bounds for paths and binary file objects at their start. Refuted for text file objects: the loaders of bytes (pickles, routing tables) refuse them, so such contents do not load (proved instead: the first of the text loaders that succeeds decides). That the object is at its start is needed: otherwise the first loader sees only the rest and the others the whole file. Python 3, ASCII contents, file objects that can be repositioned."
  }
 ]
}