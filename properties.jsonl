{"id": "C01", "title": "Wildcard intersection is packet-set intersection", "statement": "For two ternary wildcards, wildcard_intersect returns a wildcard accepting exactly the packets accepted by both; it returns 0 (falsy) exactly when no packet is accepted by both. Consequently Match.overlaps is True iff the two matches have a packet in common.", "quantifier": "every pair of wildcards over the full 1584-tbit header and every packet", "why_tests_cant": "2^(2*1584) wildcard pairs; bit tricks (~r & ~r>>1 & mask) can fail at one bit position only", "anchors": ["ofequivalence/headerspace.py:wildcard_intersect", "ofequivalence/headerspace.py:ODD_MASKS", "ofequivalence/rule.py:Match.overlaps"]}
{"id": "C02", "title": "Wildcard subset test decides packet-set inclusion", "statement": "For a non-empty first wildcard, wildcard_is_subset(a,b) is True iff every packet accepted by a is accepted by b (hence Match.issubset decides inclusion).", "quantifier": "every pair of wildcards and every packet", "why_tests_cant": "universally quantified over both wildcards and packets", "anchors": ["ofequivalence/headerspace.py:wildcard_is_subset", "ofequivalence/rule.py:Match.issubset"]}
{"id": "C03", "title": "Cover union is the least enclosing wildcard", "statement": "wildcard_union_cover(a,b) accepts every packet a or b accepts, and every wildcard that accepts both a and b also accepts everything the cover accepts.", "quantifier": "all pairs of wildcards and all candidate covers", "why_tests_cant": "leastness quantifies over all other wildcards", "anchors": ["ofequivalence/headerspace.py:wildcard_union_cover", "ofequivalence/rule.py:Match.union_cover"]}
{"id": "C04", "title": "A Match's wildcard accepts exactly the packets its fields describe", "statement": "A packet is accepted by match.get_wildcard() iff, for every field of the match, the packet's field agrees with the value on every bit of the mask (all bits when mask is None); fields not mentioned are unconstrained; unknown fields never constrain.", "quantifier": "every match (any set of fields, values, masks), every packet", "why_tests_cant": "field widths, offsets, mask widths and interleaving interact for every value/mask", "anchors": ["ofequivalence/headerspace.py:flow_matches_to_wildcard", "ofequivalence/headerspace.py:WC_FIELD_OFFSET", "ofequivalence/headerspace.py:morton_number", "ofequivalence/rule.py:Match.get_wildcard"]}
{"id": "C05", "title": "Converting a wildcard to a Match and back is the identity", "statement": "For every non-empty wildcard whose padding tbits are x, flow_wildcard_to_flowmatches produces a Match whose wildcard recomputed from its fields equals the original (so the cached wildcard is truthful); fully specified fields come out with mask None, untouched fields do not appear, and value is a submask of mask.", "quantifier": "every non-empty wildcard over the real field layout", "why_tests_cant": "every combination of field values and masks over 54 fields", "anchors": ["ofequivalence/headerspace.py:flow_wildcard_to_fields", "ofequivalence/headerspace.py:flow_wildcard_to_flowmatches", "ofequivalence/headerspace.py:RMorton", "ofequivalence/headerspace.py:bit2field"]}
{"id": "C06", "title": "Intersecting disjoint matches yields an empty match", "statement": "Match.intersection of two matches with no packet in common returns a value (representing no packets) rather than failing.", "quantifier": "every pair of disjoint matches", "why_tests_cant": "depends on layout padding; needs all disjoint pairs", "anchors": ["ofequivalence/rule.py:Match.intersection", "ofequivalence/headerspace.py:flow_wildcard_to_fields", "ofequivalence/headerspace.py:bit2field"]}
{"id": "C07", "title": "All morton_number implementations interleave bits exactly and agree", "statement": "morton_number(a,b) places bit i of a at position 2i and bit i of b at 2i+1 for arbitrarily large non-negative integers, and the pure Python, lookup-table C, pdep32 C and pdep64 C versions return the same integer; RMorton inverts it.", "quantifier": "all pairs of natural numbers of any size", "why_tests_cant": "unbounded integers; word boundary effects", "anchors": ["ofequivalence/headerspace.py:morton_number", "ofequivalence/headerspace.py:RMorton", "c_src/utils.c:morton_number_lut", "c_src/utils.c:morton_number_pdep32", "c_src/utils.c:morton_number_pdep64"]}
{"id": "C08", "title": "Wildcards are canonical for packet sets", "statement": "Two non-empty wildcards are the same integer iff they accept the same packets, so using a wildcard as a hash/equality key (Match.__hash__, dedup of rules) never conflates different packet sets nor separates equal ones.", "quantifier": "all pairs of non-empty wildcards", "why_tests_cant": "universal over packets", "anchors": ["ofequivalence/headerspace.py:wildcard_intersect", "ofequivalence/rule.py:Match.__hash__", "ofequivalence/normaliseheaderspace.py:normalise"]}
{"id": "C09", "title": "Match bookkeeping stays consistent under every operation sequence", "statement": "After any sequence of append, delete, copy(add,remove), get_wildcard and intersection on Match objects: required_mask has exactly the bits of the fields present, a cached wildcard equals the recomputed one, and equal matches have equal hashes.", "quantifier": "every finite history of operations", "why_tests_cant": "history-dependent cache invalidation", "anchors": ["ofequivalence/rule.py:Match.append", "ofequivalence/rule.py:Match.__delitem__", "ofequivalence/rule.py:Match.copy", "ofequivalence/rule.py:Match.get_wildcard", "ofequivalence/rule.py:Match.__eq__", "ofequivalence/rule.py:Match.__hash__"]}
{"id": "C10", "title": "headerspace objects denote the right packet sets; emptiness verdicts are right", "statement": "copy_intersect denotes intersection, diff_hs denotes set difference, clean_up preserves the denotation and never drops packets; is_empty after clean_up is True only if the object denotes no packet - and a user also expects it to be True whenever it denotes no packet.", "quantifier": "every headerspace object (any list of unions with differences), every wildcard, every packet", "why_tests_cant": "unbounded lists of differences", "anchors": ["ofequivalence/headerspace.py:headerspace.intersect", "ofequivalence/headerspace.py:headerspace.diff_hs", "ofequivalence/headerspace.py:headerspace.clean_up", "ofequivalence/headerspace.py:compress_wildcard_list", "ofequivalence/headerspace.py:headerspace.is_empty"]}
{"id": "C11", "title": "A rule's BDD maps exactly the matching packets to the rule's action", "statement": "wc_to_BDD(wc,action) maps a packet to action iff wc accepts it and to undefined otherwise; wc==0 gives the empty BDD. Holds for the Python, cbdd and CUDD builders.", "quantifier": "every wildcard, action and packet", "why_tests_cant": "header is 1584 bits", "anchors": ["ofequivalence/bdd.py:wc_to_BDD", "c_src/cbddmodule.cpp:wc_to_BDD", "c_src/cuddmodule.c:wc_to_BDD", "ofequivalence/cuddbdd.py:wc_to_BDD"]}
{"id": "C12", "title": "Melding is priority union", "statement": "a + b maps every packet to a's action where a is defined, otherwise to b's.", "quantifier": "every pair of BDDs and every packet", "why_tests_cant": "recursion over arbitrary diagrams, shortcut on has_none", "anchors": ["ofequivalence/bdd.py:meld_recursive", "ofequivalence/bdd.py:BDDNode.has_none", "c_src/cbddmodule.cpp:_meld_recursive", "c_src/cuddmodule.c:Cudd_addMeld"]}
{"id": "C13", "title": "subtract and intersection are pointwise", "statement": "a.subtract(b) keeps a's action for packets where b's result differs from a's (incl. undefined) and is undefined elsewhere; a.intersection(b) keeps the action where both give the same defined action and is undefined elsewhere; truth value of a CUDD BDD is False iff it is undefined everywhere.", "quantifier": "every pair of BDDs and every packet", "why_tests_cant": "arbitrary diagrams", "anchors": ["ofequivalence/bdd.py:subtract_recursive", "ofequivalence/bdd.py:intersection_recursive", "c_src/cuddmodule.c:Cudd_addSubtract", "c_src/cuddmodule.c:Cudd_addIntersection", "c_src/cuddmodule.c:BDD_bool"]}
{"id": "C14", "title": "BDD equality is semantic equality", "statement": "Two BDDs built by any sequence of wc_to_BDD, +, subtract, intersection, difference compare equal (==, identity of roots) iff they map every packet to the same action (or undefined).", "quantifier": "every pair of BDDs obtained through the API, every packet", "why_tests_cant": "identity comparison relies on global hash-consing over the whole history", "anchors": ["ofequivalence/bdd.py:BDD.__eq__", "ofequivalence/bdd.py:check_ncache_rm_dup", "ofequivalence/bdd.py:check_ncache", "c_src/cuddmodule.c:BDD_richcmp"]}
{"id": "C15", "title": "Results do not depend on caches or on the history of the process", "statement": "For the Python BDD engine with its process-wide node, merge, intersection, difference, subtract and rule caches (LRU, bounded, evicting), every operation returns the BDD with the right packet function, and == stays semantic, whatever operations ran before and whatever entries any cache has evicted.", "quantifier": "every history of BDD operations and every pattern of LRU evictions", "why_tests_cant": "unbounded histories, eviction schedules", "anchors": ["ofequivalence/bdd.py:NODE_CACHE", "ofequivalence/bdd.py:MERGE_CACHE", "ofequivalence/bdd.py:RULE_CACHE", "ofequivalence/bdd.py:check_ncache_rm_dup", "ofequivalence/bdd.py:meld_recursive", "ofequivalence/bdd.py:wc_to_BDD"]}
{"id": "C16", "title": "difference reports exactly the packets that differ", "statement": "a.difference(b) is defined (DIFFERS) on a packet iff a and b give different results for that packet.", "quantifier": "every pair of BDDs and every packet", "why_tests_cant": "one-sided undefined regions", "anchors": ["ofequivalence/bdd.py:difference_recursive", "c_src/cbddmodule.cpp:_difference_recursive", "c_src/cuddmodule.c:Cudd_addDifference"]}
{"id": "C17", "title": "Tagged difference carries both actions losslessly", "statement": "a.difftagged(b) is undefined where the two agree and elsewhere carries the pair (action of a, action of b); terminal ids below 2^26 survive the packing of two ids into one double, and distinct pairs get distinct terminals.", "quantifier": "every pair of BDDs with ids < 2^26, every packet", "why_tests_cant": "2^52 id pairs", "anchors": ["c_src/cuddmodule.c:Cudd_addDiffTagged", "c_src/cuddmodule.c:ENCODE_TERMINAL", "c_src/cuddmodule.c:DECODE_TERMINAL", "ofequivalence/cuddbdd.py:BDD_to_wcs"]}
{"id": "C18", "title": "Enumerating a BDD yields a partition of the defined packets", "statement": "BDD_to_wcs returns pairwise disjoint non-empty wildcards; a packet is in some returned wildcard with action t iff the BDD maps it to t; the number of entries equals the count reported by len(BDDIterator).", "quantifier": "every BDD and packet", "why_tests_cant": "arbitrary diagrams", "anchors": ["ofequivalence/bdd.py:_BDD_to_wcs", "c_src/cuddmodule.c:_BDD_to_wcs", "c_src/cuddmodule.c:BDDIterator_next", "c_src/cuddmodule.c:size_rec"]}
{"id": "C19", "title": "The three BDD backends compute the same functions", "statement": "Python bdd, C++ cbdd and the CUDD based module give the same packet function for meld, subtract, intersection and difference of the same inputs, although their shortcut rules differ.", "quantifier": "all pairs of diagrams", "why_tests_cant": "different terminal-case orders", "anchors": ["ofequivalence/bdd.py", "c_src/cbddmodule.cpp", "c_src/cuddmodule.c"]}
{"id": "C20", "title": "Naive normalisation is first-match semantics", "statement": "normalise_naive(rules) maps every packet to the per-output actions of the first rule in the list whose match accepts it, and to undefined if none does.", "quantifier": "every list of single-table rules and every packet", "why_tests_cant": "all rulesets", "anchors": ["ofequivalence/normalisebdd.py:normalise_naive"]}
{"id": "C21", "title": "Divide and conquer agrees with naive normalisation", "statement": "For every non-empty rule list normalise_divide_and_conquer returns a BDD equal to that of normalise_naive (the pairwise merge order, incl. the odd leftover, does not matter); it terminates; the empty list is rejected by its final assertion while naive returns the empty BDD.", "quantifier": "every list of rules of any length", "why_tests_cant": "all lengths and pairings", "anchors": ["ofequivalence/normalisebdd.py:normalise_divide_and_conquer", "ofequivalence/normalisebdd.py:normalise_naive"]}
{"id": "C22", "title": "check_equal decides forwarding equality of single tables", "statement": "check_equal(normalise(A), normalise(B), check_match_redundancy=False) is True iff for every packet the first matching rule of A and of B prescribe the same per-output actions (or neither matches).", "quantifier": "all pairs of single-table rulesets, all packets", "why_tests_cant": "iff over all packets", "anchors": ["ofequivalence/normalisebdd.py:check_equal", "ofequivalence/normalisebdd.py:normalise", "c_src/cuddmodule.c:BDD_richcmp"]}
{"id": "C23", "title": "Equivalent rulesets are grouped exactly", "statement": "The grouping printed by check_equivalence puts every ruleset on exactly one line, two rulesets are on the same line iff their canonical forms are equal, and the loop terminates.", "quantifier": "every number and order of rulesets", "why_tests_cant": "all permutations/sizes", "anchors": ["ofequivalence/check_equivalence.py:main"]}
{"id": "C24", "title": "Differing traffic is attributed to the right paths", "statement": "_collect_paths splits a set of packets among the rules that are first to match them: every packet of the input set is in exactly one returned part, the part belongs to the path of its first matching rule, or to the empty path if no rule matches; find_conflicting_paths therefore relates an original path to a new path iff some differing packet takes both.", "quantifier": "every difference set, every pair of ordered rulesets, every packet", "why_tests_cant": "all rulesets; several rules may share a path", "anchors": ["ofequivalence/normalisebdd.py:_collect_paths", "ofequivalence/normalisebdd.py:find_conflicting_paths"]}
{"id": "C25", "title": "Eager set-field normalisation is sound and complete for set-field/output rules", "statement": "With match_redundancy=True two single tables (whose actions are set-field and output only) get equal canonical forms iff for every packet they emit the same packets on the same ports.", "quantifier": "all rulesets of that kind, all packets", "why_tests_cant": "2^k combinations of set fields times all packets", "anchors": ["ofequivalence/normalisebdd.py:normalise_set_fields", "ofequivalence/normalisebdd.py:normalise_divide_and_conquer"]}
{"id": "C26", "title": "Lazy match-redundancy check is sound and total", "statement": "check_equal with check_match_redundancy=True (the default) returns a Boolean for every pair of canonical forms and returns True only if for every packet both sides emit the same packets on the same ports.", "quantifier": "all pairs of canonical forms, all packets", "why_tests_cant": "undefined regions, exact-match prefixes", "anchors": ["ofequivalence/normalisebdd.py:check_equal_match_redundancy", "ofequivalence/normalisebdd.py:check_equal"]}
{"id": "C27", "title": "ActionList order is canonical for the dependency relation", "statement": "Two ActionLists compare equal iff one action sequence can be transformed into the other by repeatedly swapping adjacent actions that do not depend on each other; iteration yields a permutation of the appended actions that never reverses a dependent pair.", "quantifier": "all pairs of action sequences of any length", "why_tests_cant": "all interleavings of unbounded lists", "anchors": ["ofequivalence/rule.py:ActionList._append", "ofequivalence/rule.py:ActionList.__eq__", "ofequivalence/rule.py:ActionList.__iter__", "ofequivalence/rule.py:ActionList.depends", "ofequivalence/openflow_desc.py:action_dependancies"]}
{"id": "C28", "title": "Reordering allowed by the dependency table never changes the packet", "statement": "If the dependency table says two actions are independent, executing them in either order has the same effect on every packet (headers, tags, TTLs, queue, emitted copies); hence ActionLists that compare equal, and canonical reordering, preserve forwarding.", "quantifier": "every pair of actions, every packet, every list", "why_tests_cant": "all packets and tag stacks", "anchors": ["ofequivalence/openflow_desc.py:action_dependancies", "ofequivalence/rule.py:ActionList.depends", "ofequivalence/rule.py:ActionList.__iter__"]}
{"id": "C29", "title": "Removing actions leaves the remaining actions intact", "statement": "After ActionList.remove(x) (or copy(remove=[..])) the list iterates over exactly the previously appended actions minus one occurrence of x, in canonical order.", "quantifier": "every list and every action", "why_tests_cant": "order of append vs canonical order", "anchors": ["ofequivalence/rule.py:ActionList.remove", "ofequivalence/rule.py:ActionList.copy"]}
{"id": "C30", "title": "per_output_actions equality implies equal forwarding", "statement": "If two action lists have equal per_output_actions() then executing them on any packet emits the same set of (port, packet) pairs.", "quantifier": "all pairs of action lists, all packets", "why_tests_cant": "same port may be used twice", "anchors": ["ofequivalence/rule.py:ActionList.per_output_actions", "ofequivalence/rule.py:ActionList._per_output_actions_list"]}
{"id": "C31", "title": "Redundancy removal preserves the effect on packets", "statement": "Removing redundant actions (overwritten set-fields, push/pop pairs, set-fields on popped headers) never changes what the list does to a packet, and terminates.", "quantifier": "all action lists, all packets", "why_tests_cant": "nested push/pop of any depth", "anchors": ["ofequivalence/rule.py:ActionList._remove_redundant"]}
{"id": "C32", "title": "An action set holds at most one action of each kind in execution order", "statement": "After any sequence of appends an ActionSet holds at most one action per type (per field for SET_FIELD), never OUTPUT together with GROUP, the latest write wins, and iteration is in canonical form of the OpenFlow execution order.", "quantifier": "every sequence of appends", "why_tests_cant": "unbounded histories", "anchors": ["ofequivalence/rule.py:ActionSet.append", "ofequivalence/openflow_desc.py:action_set_order"]}
{"id": "C33", "title": "Merging instructions is OpenFlow sequential composition", "statement": "Instructions merge: apply actions concatenate, a later clear-actions discards earlier writes, later writes override earlier ones of the same kind, goto comes from the later rule; merging is associative up to equality.", "quantifier": "all triples of instructions", "why_tests_cant": "all combinations", "anchors": ["ofequivalence/rule.py:Instructions.merge", "ofequivalence/rule.py:ActionList.copy", "ofequivalence/rule.py:ActionSet.append"]}
{"id": "C34", "title": "A merged rule matches exactly the packets that hit both rules", "statement": "For rules that set fields and write metadata: first.merge(second) succeeds iff some packet matching first matches second after first's rewrites, and the merged match accepts a packet iff it matches first and, after first's rewrites, matches second.", "quantifier": "all pairs of rules, all packets", "why_tests_cant": "masks, metadata bits, rewritten fields", "anchors": ["ofequivalence/rule.py:Rule.merge", "ofequivalence/rule.py:Rule._get_simulated_egress", "ofequivalence/rule.py:Match.intersection"]}
{"id": "C35", "title": "Metadata writes compose", "statement": "The merged write_metadata, applied to any metadata value, gives the same value as applying the first rule's and then the second's write.", "quantifier": "all values, masks (incl. None) and metadata words", "why_tests_cant": "64-bit values and masks", "anchors": ["ofequivalence/rule.py:Rule.merge"]}
{"id": "C36", "title": "A merged rule does what the two rules do in sequence", "statement": "On every packet matched by the merged rule, executing the merged instructions has the same observable effect as executing the first rule's and then the second rule's instructions.", "quantifier": "all pairs of rules, all packets", "why_tests_cant": "all actions", "anchors": ["ofequivalence/rule.py:Rule.merge", "ofequivalence/rule.py:Instructions.merge"]}
{"id": "C37", "title": "Scaled priorities add up lexicographically", "statement": "After scale_ruleset, comparing sums of priorities along two paths orders them as comparing their original priorities table by table, for any number of tables; no two different priority sequences collide.", "quantifier": "all rulesets with priorities < 2^16, any number of tables", "why_tests_cant": "unbounded tables", "anchors": ["ofequivalence/ruleset.py:scale_ruleset", "ofequivalence/rule.py:Rule.merge"]}
{"id": "C38", "title": "The single table forwards every packet like the multi-table pipeline", "statement": "For every multi-table ruleset (set-field, output, metadata, goto), to_single_table returns a list of rules whose first matching rule has, for every packet, the same effect as running the packet through the tables.", "quantifier": "all rulesets, all packets, any number of tables", "why_tests_cant": "all pipelines and packets", "anchors": ["ofequivalence/ruleset.py:to_single_table", "ofequivalence/ruleset.py:single_table_condense", "ofequivalence/ruleset.py:to_single_table_scaled", "ofequivalence/rule.py:Rule.merge"]}
{"id": "C39", "title": "Every packet is handled after default filling", "statement": "to_single_table fills in missing default rules, so every packet matches some rule of the result.", "quantifier": "all rulesets, all packets", "why_tests_cant": "a priority-0 rule need not match everything", "anchors": ["ofequivalence/ruleset.py:to_single_table_scaled"]}
{"id": "C40", "title": "Condensing keeps priority order", "statement": "If the two input tables are in decreasing priority order so is the output of single_table_condense; hence re-sorting the single table by priority does not change which rule is hit.", "quantifier": "all rulesets", "why_tests_cant": "ties, gotos", "anchors": ["ofequivalence/ruleset.py:single_table_condense", "ofequivalence/ruleset.py:sort_ruleset", "ofequivalence/normalisebdd.py:find_conflicting_paths"]}
{"id": "C41", "title": "Tag demotion and promotion are inverse", "statement": "Demoting a field's matches by n and promoting by n restores the match; promoting never silently drops a match on the popped header; exceeding the supported depth is reported as an OverflowError.", "quantifier": "all matches, all n", "why_tests_cant": "all depth combinations", "anchors": ["ofequivalence/rule.py:demote_match", "ofequivalence/rule.py:promote_match"]}
{"id": "C42", "title": "Push/pop aware egress is sound", "statement": "For a packet matched by a rule with push/pop/set-field actions, the packet after the actions is accepted by the rule's get_goto_egress() (so rules reported non-overlapping in the next table really cannot be hit).", "quantifier": "all rules with tag operations, all packets and tag stacks", "why_tests_cant": "unbounded stacks", "anchors": ["ofequivalence/rule.py:Rule._get_simulated_egress", "ofequivalence/rule.py:Rule.egress_overlap"]}
{"id": "C43", "title": "Direct dependencies are exactly the fall-through rules", "statement": "Within one table, build_table_deps reports the edge (R,S) iff some packet matched by R would hit S when only the rules of strictly lower priority than R are left, i.e. S is the first of those (highest priority, list order on ties) that matches the packet.", "quantifier": "all tables, all packets", "why_tests_cant": "all rulesets", "anchors": ["ofequivalence/ruleset_deps_direct.py:build_table_deps", "ofequivalence/ruleset_deps_direct.py:add_parents_bdd"]}
{"id": "C44", "title": "Edge packet-spaces partition each rule's traffic", "statement": "The packet spaces attached to the edges of a rule are pairwise disjoint, each lies in both rules' matches, and together they are exactly the rule's packets matched by some lower-priority rule.", "quantifier": "all tables, rules, packets", "why_tests_cant": "all rulesets", "anchors": ["ofequivalence/ruleset_deps_direct.py:add_parents_bdd", "ofequivalence/ruleset_deps_direct.py:build_table_deps"]}
{"id": "C45", "title": "Incremental DAG construction equals the offline construction", "statement": "For a single table with pairwise distinct priorities and a lowest-priority match-all default, build_table_deps_incremental returns the same edges with the same packet spaces as build_table_deps.", "quantifier": "all such tables", "why_tests_cant": "graph search over all insertion histories", "anchors": ["ofequivalence/ruleset_deps_direct.py:build_table_deps_incremental", "ofequivalence/ruleset_deps_direct.py:dep_dag_insert", "ofequivalence/ruleset_deps_direct.py:_find_affected_edges", "ofequivalence/ruleset_deps_direct.py:_process_affected_edges"]}
{"id": "C46", "title": "Prefix-table dependencies are the enclosing prefixes", "statement": "For a table of distinct IPv4 prefixes with a default route, the direct builder links every prefix to its longest strictly enclosing prefix and the indirect builder to all strictly enclosing prefixes; the pop loop never runs out of elements.", "quantifier": "all FIBs of any size", "why_tests_cant": "all prefix sets", "anchors": ["ofequivalence/ruleset_deps_direct.py:build_prefix_table_deps", "ofequivalence/ruleset_deps_indirect.py:build_prefix_table_deps"]}
{"id": "C47", "title": "Indirect in-table dependencies are exactly the overlapping lower-priority rules", "statement": "ruleset_deps_indirect.build_table_deps reports (R,S) iff S has lower priority than R in the table and they share a packet; BDD and wildcard variants agree.", "quantifier": "all tables", "why_tests_cant": "all rulesets", "anchors": ["ofequivalence/ruleset_deps_indirect.py:build_table_deps", "ofequivalence/ruleset_deps_indirect.py:add_parents_hs", "ofequivalence/ruleset_deps_indirect.py:add_parents_bdd"]}
{"id": "C48", "title": "The headerspace variant never misses a dependency", "statement": "With use_bdd=False build_table_deps reports every edge the BDD variant reports; a user expects the two variants to return the same edges.", "quantifier": "all tables", "why_tests_cant": "emptiness is only approximated", "anchors": ["ofequivalence/ruleset_deps_direct.py:add_parents_hs", "ofequivalence/headerspace.py:headerspace.clean_up"]}
{"id": "C49", "title": "Compression groups partition the ruleset", "statement": "create_similar_groups puts every rule in exactly one group, all rules in a group have the same table, priority, match mask, goto and action kinds, and at the end all rules of a group have parents and children in the same groups; the splitting loop terminates.", "quantifier": "all rulesets and dependency graphs", "why_tests_cant": "iterative refinement to a fixed point", "anchors": ["ofequivalence/ruleset.py:create_similar_groups"]}
{"id": "C50", "title": "The compressed ruleset picks one representative per group", "statement": "Whatever choices select_compressed_ruleset makes, the mapping stays a partition keyed by its representative and the returned rules are exactly one per group.", "quantifier": "all rulesets, all choice sequences", "why_tests_cant": "all iteration orders", "anchors": ["ofequivalence/ruleset.py:select_compressed_ruleset", "ofequivalence/ruleset.py:_switch_assigned", "ofequivalence/ruleset.py:compress_ruleset"]}
{"id": "C51", "title": "simplify_tree removes exactly the transitive edges", "statement": "After simplify_tree on an acyclic dependency graph no edge is implied by the others and reachability is unchanged.", "quantifier": "all acyclic graphs", "why_tests_cant": "all graphs", "anchors": ["ofequivalence/ruleset.py:simplify_tree", "ofequivalence/ruleset.py:node_to_tree"]}
{"id": "C52", "title": "Letter numbering is a bijection", "statement": "Formatting an AlphaInt n>=0 with 'z' gives a non-empty lower-case word; different numbers give different words and every non-empty word is produced (a, b, ..., z, aa, ab, ...).", "quantifier": "all natural numbers and all words", "why_tests_cant": "unbounded", "anchors": ["ofequivalence/utils.py:AlphaInt.__format__"]}
{"id": "C53", "title": "The automatic memory limit respects its bounds", "statement": "automatically_limit_memory never changes an existing limit; otherwise the new limit is at least m_min, never above max(free, m_min), and reserves at most max_res and at most res_perc percent.", "quantifier": "all parameter values and memory sizes", "why_tests_cant": "arithmetic over all sizes", "anchors": ["ofequivalence/limits.py:automatically_limit_memory"]}
{"id": "C54", "title": "IPv4 and Ethernet formatting round-trips", "statement": "normalise_bytes(format_ipv4(v)) == v for every v < 2^32 and normalise_bytes(format_ethernet(v)) == v for every v < 2^48.", "quantifier": "all 2^32 / 2^48 values", "why_tests_cant": "2^48 values", "anchors": ["ofequivalence/format_utils.py:format_ipv4", "ofequivalence/format_utils.py:format_ethernet", "ofequivalence/format_utils.py:normalise_bytes"]}
{"id": "C55", "title": "IPv6 formatting round-trips", "statement": "normalise_bytes(format_ipv6(v)) == v for every v < 2^128.", "quantifier": "all 2^128 values", "why_tests_cant": "2^128 values", "anchors": ["ofequivalence/format_utils.py:format_ipv6", "ofequivalence/format_utils.py:normalise_bytes"]}
{"id": "C56", "title": "A converted FIB does longest-prefix matching", "statement": "For every FIB, the highest-priority rule of ruleset_from_fib matching a destination is an entry with the longest prefix containing it; outputs are numbered 1.. in first-seen order and two entries share an output iff they have the same peer.", "quantifier": "all FIBs, all destination addresses", "why_tests_cant": "all prefix sets x 2^32", "anchors": ["ofequivalence/convert_fib.py:ruleset_from_fib"]}
{"id": "C57", "title": "UniqueRules nests and restores", "statement": "Any properly nested use of UniqueRules contexts leaves Rule's equality and hash as before the outermost block, and inside any block equality is identity.", "quantifier": "all nesting structures", "why_tests_cant": "unbounded nesting", "anchors": ["ofequivalence/rule.py:UniqueRules.__enter__", "ofequivalence/rule.py:UniqueRules.__exit__"]}
{"id": "C58", "title": "Field ids are unique and stable", "statement": "After any sequence of oxm_name_to_id lookups, distinct names have distinct ids, a name keeps its id, and ids are consecutive.", "quantifier": "all lookup histories", "why_tests_cant": "history dependent", "anchors": ["ofequivalence/openflow_desc.py:oxm_name_to_id", "ofequivalence/openflow_desc.py:OpenFlow1_3_5.__init__"]}
{"id": "C59", "title": "The headerspace normaliser's verdicts are sound", "statement": "If normaliseheaderspace.check_equal returns True then the two rulesets give every packet the same actions; cells are independent of rule order.", "quantifier": "all rulesets, all packets", "why_tests_cant": "exponentially many cells", "anchors": ["ofequivalence/normaliseheaderspace.py:BooleanShim.add", "ofequivalence/normaliseheaderspace.py:merge_rules", "ofequivalence/normaliseheaderspace.py:normalise", "ofequivalence/normaliseheaderspace.py:check_equal"]}
{"id": "C60", "title": "Bit-reversal preserves equivalence", "statement": "reverse_fields reverses the bit order of every matched value, mask and set value, so applying it twice is the identity and it maps equivalent rulesets to equivalent rulesets.", "quantifier": "all rulesets and values", "why_tests_cant": "all widths and values", "anchors": ["ofequivalence/check_equivalence.py:reverse_fields"]}
{"id": "C61", "title": "Sorting a ruleset is a stable priority sort", "statement": "sort_ruleset returns a permutation of the rules ordered by table then decreasing priority, keeping the relative order of ties.", "quantifier": "all rulesets", "why_tests_cant": "all sizes", "anchors": ["ofequivalence/ruleset.py:sort_ruleset", "ofequivalence/ruleset.py:sort_key_ruleset_priority"]}
{"id": "C62", "title": "The recorded path is the packet's route", "statement": "The path recorded with the rule a packet hits in the single table lists, in order, the rules that packet hits in the original pipeline (plus the filled-in default of the table it misses, if any); paths are never empty and equal paths mean equal matches.", "quantifier": "all rulesets, all packets", "why_tests_cant": "all routes through all pipelines", "anchors": ["ofequivalence/ruleset.py:to_single_table_scaled", "ofequivalence/rule.py:Rule.merge"]}
{"id": "C63", "title": "Equal verdict means equal forwarding, end to end", "statement": "If two multi-table rulesets, each converted by to_single_table and normalised, are found equal by check_equal, then every packet leaves both pipelines in the same copies on the same ports.", "quantifier": "all pairs of rulesets, all packets", "why_tests_cant": "all packets through all pipelines; composes every stage", "anchors": ["ofequivalence/ruleset.py:to_single_table", "ofequivalence/normalisebdd.py:normalise_divide_and_conquer", "ofequivalence/normalisebdd.py:check_equal"]}
{"id": "C64", "title": "Compressed IPv6 addresses parse to the right value", "statement": "For every IPv6 address text in the compressed form of RFC 4291 (one '::' standing for one or more zero groups), normalise_bytes returns the address it denotes.", "quantifier": "all compressed IPv6 texts", "why_tests_cant": "all 2^128 addresses x all compressions", "anchors": ["ofequivalence/format_utils.py:normalise_bytes"]}
{"id": "C65", "title": "normalise_string inverts every formatter", "statement": "normalise_string applied to the output of format_decimal, format_hex, format_ipv4 or format_ethernet (without a mask) returns the formatted value.", "quantifier": "all values", "why_tests_cant": "all values of all widths", "anchors": ["ofequivalence/format_utils.py:normalise_string"]}
{"id": "C66", "title": "Inserting a rule into the dependency graph keeps it exact", "statement": "Starting from the default rule alone, inserting with dep_dag_insert any duplicate-free sequence of other rules of the table, in any order of priorities, gives after every insertion exactly the edges and packet spaces of the rules inserted so far.", "quantifier": "all tables whose rules of equal priority are disjoint, all insertion orders, all set iteration orders", "why_tests_cant": "graph updates over all insertion histories", "anchors": ["ofequivalence/ruleset_deps_direct.py:dep_dag_insert", "ofequivalence/ruleset_deps_direct.py:_find_affected_edges", "ofequivalence/ruleset_deps_direct.py:_process_affected_edges"]}
{"id": "C67", "title": "Direct dependencies of a multi-table ruleset", "statement": "For every ruleset whose gotos go forward, build_ruleset_deps of the direct builder returns an edge (i, j) exactly if some packet of rule i falls through to rule j in their table, or some packet of rule i, rewritten by its apply actions, hits rule j in the goto table of i. A goto to the same or an earlier table never gives a graph.", "quantifier": "all rulesets, both table builders", "why_tests_cant": "all packets through all table pairs", "anchors": ["ofequivalence/ruleset_deps_direct.py:build_ruleset_deps"]}
{"id": "C68", "title": "Indirect dependencies of a multi-table ruleset", "statement": "For every ruleset whose gotos go forward, build_ruleset_deps of the indirect builder returns an edge (i, j) exactly if rule i overlaps the lower-priority rule j of its table, or some packet of rule i can be at rule j after following gotos (each table may pick any matching rule). The direct edges are among them.", "quantifier": "all rulesets, with and without BDDs", "why_tests_cant": "all packets along all goto chains of any length", "anchors": ["ofequivalence/ruleset_deps_indirect.py:build_ruleset_deps", "ofequivalence/ruleset_deps_indirect.py:_recurse_goto_deps"]}
{"id": "C69", "title": "Compressed rules depend on each other as their groups do", "statement": "When compress_ruleset returns, two rules of the compressed ruleset depend on each other exactly if some rules of their groups do, whatever order sets are iterated in.", "quantifier": "all rulesets with forward dependencies (all that the indirect builder finds), all iteration orders", "why_tests_cant": "the greedy selection with moves back over all groups", "anchors": ["ofequivalence/ruleset.py:compress_ruleset", "ofequivalence/ruleset.py:select_compressed_ruleset", "ofequivalence/ruleset.py:_check_option_full", "ofequivalence/ruleset.py:_allowed_options"]}
{"id": "C70", "title": "The layered drawing puts children below their parents", "statement": "For every graph whose edges lead to nodes later in the sort order (in particular the dependencies of every ruleset whose gotos go forward), directed_layout gives each node one position inside the square, no two nodes share a position, and every edge leads down, for all flags and groupings. With push_down off every node is as high as possible; with push_down on every node is as low as possible.", "quantifier": "all graphs, keys, groups, scales and flags", "why_tests_cant": "all graphs of any size", "anchors": ["ofequivalence/graph_ruleset_deps.py:directed_layout", "ofequivalence/graph_ruleset_deps.py:build_graph", "ofequivalence/graph_ruleset_deps.py:number_groups"]}
{"id": "C71", "title": "Compressing a list of wildcards", "statement": "compress_wildcard_list returns a sublist that accepts the same packets, in which no wildcard accepts only packets of another one.", "quantifier": "all lists of wildcards", "why_tests_cant": "all subset relations between all positions", "anchors": ["ofequivalence/headerspace.py:compress_wildcard_list"]}
{"id": "C72", "title": "The text of a wildcard", "statement": "flow_wildcard_to_string writes for each field, last field first, its name and one character per tbit, most significant first; different wildcards have different texts, and a wildcard with a z tbit or closed padding raises AssertionError.", "quantifier": "all wildcards", "why_tests_cant": "all wildcards of 1584 tbits", "anchors": ["ofequivalence/headerspace.py:flow_wildcard_to_string", "ofequivalence/headerspace.py:wildcard_to_tint"]}
{"id": "C73", "title": "Rules survive the way to Ryu and back", "statement": "For every ruleset without Group objects, write-metadata and meters, ruleset_from_ryu of ruleset_to_ryu returns equal rules in the same order: every match field, mask, action, written action, goto, clear flag, priority, cookie and table.", "quantifier": "all rulesets over the forty OpenFlow 1.3 fields, all action lists and sets", "why_tests_cant": "all values of all fields: the loss depends on the bytes of a value", "anchors": ["ofequivalence/convert_ryu.py:rule_to_ryu", "ofequivalence/convert_ryu.py:rule_from_ryu", "ofequivalence/convert_ryu.py:match_from_ryu", "ofequivalence/convert_ryu.py:match_to_ryu", "ofequivalence/format_utils.py:normalise_bytes"]}
{"id": "C74", "title": "Groups sent to Ryu", "statement": "When rule_to_ryu returns, the group messages can be installed in the order given (a group only refers to groups before it), every group reference of the flow is defined by one of them, reading the references back gives the original nested actions, and different groups have different numbers.", "quantifier": "all rules with Group objects nested to any depth, all Table Type Pattern links, all counter states", "why_tests_cant": "all nestings of groups", "anchors": ["ofequivalence/convert_ryu.py:group_to_ryu", "ofequivalence/convert_ryu.py:group_ofdpa_id", "ofequivalence/convert_ryu.py:actions_to_ryu", "ofequivalence/convert_ryu.py:instructions_to_ryu"]}
{"id": "C75", "title": "Rules survive the way to Open vSwitch text and back", "statement": "For every ruleset, the file that ruleset_to_ovs writes is read by ruleset_from_ovs as equal rules in the same order: every match field, mask, action, written action, metadata, goto, clear flag, meter, priority, cookie and table.", "quantifier": "all rulesets, all values of all fields, all action lists and sets", "why_tests_cant": "all texts that the formatters can produce, through the regular expressions that read them", "anchors": ["ofequivalence/convert_ovs.py:ruleset_to_ovs", "ofequivalence/convert_ovs.py:ruleset_from_ovs", "ofequivalence/convert_ovs.py:rule_to_ovs", "ofequivalence/convert_ovs.py:rule_from_ovs", "ofequivalence/convert_ovs.py:match_to_ovs", "ofequivalence/convert_ovs.py:instructions_to_ovs", "ofequivalence/convert_ovs.py:actions_to_ovs"]}
{"id": "C76", "title": "The reader of Open vSwitch flows understands the documented syntax", "statement": "For every line in the syntax of ovs-fields(7) and ovs-actions(7), rule_from_ovs returns the rule it describes: each field with its value and mask (numbers, addresses, prefixes, VLAN forms, protocol names), applied actions in order, written actions, metadata, goto, clear flag, priority (default 32768), table (default 0) and cookie; counters and timeouts are ignored, blanks and letter case of actions do not matter.", "quantifier": "all lines of the grammar, all tables of groups", "why_tests_cant": "unboundedly many texts; the regular expressions overlap and backtrack", "anchors": ["ofequivalence/convert_ovs.py:rule_from_ovs", "ofequivalence/convert_ovs.py:_parse_flow_argument", "ofequivalence/convert_ovs.py:_add_match", "ofequivalence/convert_ovs.py:_parse_field_name", "ofequivalence/convert_ovs.py:instructions_from_ovs", "ofequivalence/convert_ovs.py:_parse_next_instruction", "ofequivalence/convert_ovs.py:_parse_next_action", "ofequivalence/convert_ovs.py:_parse_port"]}
{"id": "C77", "title": "The reader of Open vSwitch files understands groups", "statement": "For every file with lines printed by ovs-ofctl dump-flows and dump-groups, in any order and with any other lines and margins, ruleset_from_ovs returns exactly the rules of the flow lines, in order, in which every group action carries the group described by the group line of that number: its type and, per bucket, its action set.", "quantifier": "all files of the grammar, any number of lines, groups and buckets", "why_tests_cant": "unboundedly many files; the buckets are found by a regular expression that may match anywhere", "anchors": ["ofequivalence/convert_ovs.py:ruleset_from_ovs", "ofequivalence/convert_ovs.py:_parse_group", "ofequivalence/convert_ovs.py:_parse_bucket"]}
{"id": "C78", "title": "Loading a file without naming its format", "statement": "ruleset_from_auto returns what the loader of the file's own format returns, whatever the file is called and in whatever order Python iterates over its set of loaders; text of no known format is refused with ValueError.", "quantifier": "all file names, all iteration orders, all written rulesets, all dumps of the grammar of C77, all routing tables of C56", "why_tests_cant": "the iteration order of a set of functions changes from run to run; unboundedly many names and files", "anchors": ["ofequivalence/convert_ruleset.py:ruleset_from_auto", "ofequivalence/convert_ruleset.py:load_ruleset", "ofequivalence/convert_ovs.py:ruleset_from_ovs", "ofequivalence/convert_fib.py:ruleset_from_fib"]}
{"id": "C79", "title": "Merging a rule that pushes and pops tags", "statement": "For every rule that pushes and pops VLAN, MPLS and PBB tags and every rule of the next table, the merged rule is hit by exactly the packets, with tag stacks of any depth, that hit the first rule and, after its actions, the second; it does to them what the two do one after the other; and there is no merged rule for want of overlap exactly when there is no such packet.", "quantifier": "all pairs of rules, all packets with tag stacks of any depth, all registry states", "why_tests_cant": "all sequences of tag operations and all depths of tag stacks; the match on a tag must follow it to the level where it was", "anchors": ["ofequivalence/rule.py:Rule.merge", "ofequivalence/rule.py:Rule._get_simulated_egress", "ofequivalence/rule.py:demote_match", "ofequivalence/rule.py:promote_match"]}
{"id": "C80", "title": "The node collector of the C BDD engine", "statement": "In every memory whose reference counts are right, gc_node_cache ends without following a freed pointer, failing an assertion or missing a key; it frees exactly the nodes that cannot be reached from a reference held outside NODE_CACHE, leaves all others where and as they are, and the reference counts are right again, so that a second collection does nothing.", "quantifier": "all memories, all sets of held references, all orders of NODE_CACHE", "why_tests_cant": "all shapes and sizes of shared graphs; the set of nodes to remove grows while it is worked off, and a wrong count shows only much later", "anchors": ["c_src/cbddmodule.cpp:gc_node_cache", "c_src/cbddmodule.cpp:BDDNode_dealloc"]}
{"id": "C81", "title": "Clients of the C BDD engine with caches and collections", "statement": "For every program that builds BDDs, combines those it still holds, drops them, collects and changes the threshold, with any allocator that reuses freed addresses, any evictions from the caches and either order of evaluation of C++ arguments: no freed node is used, the counts stay right, every held BDD stands for the function its expression means, two held BDDs are equal exactly when they are the same function, and after a collection nothing unreachable is left.", "quantifier": "all programs, allocators, cache evictions, evaluation orders and thresholds", "why_tests_cant": "addresses are used again after a collection while RULE_CACHE remembers terminals by address only; needs collections at every moment and every reuse", "anchors": ["c_src/cbddmodule.cpp:get_node", "c_src/cbddmodule.cpp:memory_cleanup", "c_src/cbddmodule.cpp:_meld_recursive", "c_src/cbddmodule.cpp:wc_to_BDD", "ofequivalence/cbdd.py:wc_to_BDD", "ofequivalence/cbdd.py:check_ncache"]}
{"id": "C82", "title": "The cleanup threshold of the C BDD engine", "statement": "set_cleanup_threshold with a number that is not negative makes the operations collect exactly when it is not 0 and NODE_CACHE holds more nodes; with a negative number it raises ValueError and changes nothing.", "quantifier": "all numbers and states", "why_tests_cant": "the effect of a rejected number shows in later operations only", "anchors": ["c_src/cbddmodule.cpp:set_cleanup_threshold", "c_src/cbddmodule.cpp:memory_cleanup"]}
{"id": "C83", "title": "The single table of rules that push and pop tags", "statement": "For every ruleset whose rules may push and pop tags, either the conversion to a single table raises an exception or the first rule of the result that matches a packet has the effect of the pipeline on it, for packets with tag stacks of any depth; in particular rulesets with the same single table treat every packet the same.", "quantifier": "all rulesets, all packets and depths of tag stacks, with and without openflow", "why_tests_cant": "all rulesets with tag operations and all tag stacks; a rule that is lost in a merge shows only for packets that reach it through a pop", "anchors": ["ofequivalence/ruleset.py:to_single_table", "ofequivalence/ruleset.py:single_table_condense", "ofequivalence/rule.py:Rule.merge"]}
{"id": "C84", "title": "The CUDD backend never uses a freed node", "statement": "In every program that makes, combines, inspects and drops BDDs of the CUDD backend and passes only initialised BDDs it still holds, no call reads or references a node that CUDD may already have collected and no call gives back a reference that was not taken; every BDD held is the one asked for, has a reference of its own, and is equal to another exactly if both are the same function.", "quantifier": "all programs of any length, all wildcards and actions, garbage collection possible at every call that creates a node", "why_tests_cant": "a missing reference shows only when CUDD collects between two particular calls; None or an uninitialised BDD as an argument crashes the interpreter", "anchors": ["c_src/cuddmodule.c:BDD_init", "c_src/cuddmodule.c:BDD_dealloc", "c_src/cuddmodule.c:wc_to_BDD", "c_src/cuddmodule.c:bmeld_recursive", "c_src/cuddmodule.c:oget_true", "c_src/cuddmodule.c:BDD_richcmp"]}
{"id": "C85", "title": "The CUDD backend gives its references back", "statement": "After every program, the references taken from CUDD are the one of the module and one for each BDD that still exists; when all BDDs have been dropped only the one of the module is left.", "quantifier": "all programs of any length, all wildcards", "why_tests_cant": "leaked nodes do not change any result; they only add up over a long run", "anchors": ["c_src/cuddmodule.c:wc_to_BDD", "c_src/cuddmodule.c:BDD_dealloc", "c_src/cuddmodule.c:BDD_init"]}
{"id": "C86", "title": "Reading the flows of a Table Type Pattern", "statement": "rule_from_ttp succeeds exactly for flows with a fixed priority, fixed match values, only the four supported instructions and no group; the rule it returns has exactly the match fields of the flow, the instructions in force, and every action of the flow, in order.", "quantifier": "all flows: any match fields, instructions and actions", "why_tests_cant": "an action that is dropped with a printed warning leaves a rule that looks complete", "anchors": ["ofequivalence/convert_ttp.py:rule_from_ttp", "ofequivalence/convert_ttp.py:match_from_ttp", "ofequivalence/convert_ttp.py:instructions_from_ttp", "ofequivalence/convert_ttp.py:actions_from_ttp"]}
{"id": "C87", "title": "The differences reported by the headerspace normaliser", "statement": "check_equal with diff=True returns the tuple of the verdict and the cells of the header space in which the two tables prescribe different actions, exactly those; find_conflicting_paths relates two paths exactly if a packet in such a cell takes both.", "quantifier": "all pairs of single tables, all iteration orders of the sets", "why_tests_cant": "the cells are exponentially many and which assert fails depends on both tables; a missing or extra cell shows for few packets", "anchors": ["ofequivalence/normaliseheaderspace.py:check_equal", "ofequivalence/normaliseheaderspace.py:_collect_paths", "ofequivalence/normaliseheaderspace.py:find_conflicting_paths", "ofequivalence/normaliseheaderspace.py:BooleanShim.matches"]}
{"id": "C88", "title": "The command check_equivalence from end to end", "statement": "For any number of rulesets given on the command line, in any formats and with either normaliser, every ruleset is printed on exactly one line, two are on the same line exactly if their single tables prescribe the same for every packet, and those on one line forward every packet alike; -D reports the difference between the first and each differing ruleset, relating exactly the paths that differing packets take, and never fails.", "quantifier": "all command lines, all loaders, any number of rulesets, all packets", "why_tests_cant": "all rulesets and packets; the registry of fields and the table of actions carry over from one ruleset to the next, and three different rulesets are needed to see which pairs are reported", "anchors": ["ofequivalence/check_equivalence.py:main", "ofequivalence/ruleset.py:to_single_table", "ofequivalence/ruleset.py:sort_ruleset", "ofequivalence/normalisebdd.py:normalise_naive", "ofequivalence/normalisebdd.py:normalise_divide_and_conquer", "ofequivalence/normalisebdd.py:find_conflicting_paths"]}
{"id": "C89", "title": "The command compress_ruleset from end to end", "statement": "For every ruleset the command loads, in any format and with any of its options, the rules it keeps stand for all: every rule is in the group of exactly one of them, the rules of a group are similar, and two kept rules depend on each other exactly as their groups do, with the indirect dependencies or with --direct the direct ones. The numbers printed are those of the rules loaded, of the single table and of the rules kept. On a routing table of distinct routes with a default route it always succeeds. --output writes the compressed ruleset in the format asked for.", "quantifier": "all options, all loaded rulesets, all writers, all orders of set iteration", "why_tests_cant": "the builders differ by option and format, and each is wrong only for rulesets in which particular rules overlap; which ruleset is written shows only by comparing the file with the numbers printed", "anchors": ["ofequivalence/compress_ruleset.py:main", "ofequivalence/convert_ruleset.py:save_ruleset", "ofequivalence/ruleset_deps_direct.py:build_ruleset_deps", "ofequivalence/ruleset_deps_indirect.py:build_ruleset_deps", "ofequivalence/convert_fib.py:ruleset_from_fib"]}
{"id": "C90", "title": "Compression succeeds where dependencies form chains", "statement": "If the dependencies lead to later tables or lower priorities and of any two rules that a rule depends on one depends on the other, then compress_ruleset finds a representative for every group, without an exception and with the same result for all orders of set iteration. This holds in particular for all rulesets without gotos in which a rule lies inside every rule of lower priority it overlaps, with direct and with indirect dependencies.", "quantifier": "all rulesets and dependency graphs of that shape, any number of rules, all orders of set iteration", "why_tests_cant": "whether a choice of representatives exists depends on the whole graph; rulesets where the code fails have at least seven rules", "anchors": ["ofequivalence/ruleset.py:select_compressed_ruleset", "ofequivalence/ruleset.py:compress_ruleset", "ofequivalence/ruleset.py:create_similar_groups"]}
{"id": "C91", "title": "Equal rules forward alike; converting to Open vSwitch changes nothing", "statement": "Two rulesets whose rules compare equal one by one (Rule.__eq__) make every packet leave with the same headers through the same ports, and check_equivalence prints them on one line. In particular, what convert_ruleset -o ovs writes for a ruleset of fields and actions that Open vSwitch text can carry is read back as a ruleset that forwards every packet as the original does, whatever the format of the original.", "quantifier": "all rulesets of any size and any tables; all packets; all input formats", "why_tests_cant": "equality of rules is defined on dictionaries and dependency levels and forwarding on pipelines; tests convert a few files and compare texts", "anchors": ["ofequivalence/convert_ruleset.py:main", "ofequivalence/rule.py:Rule.__eq__", "ofequivalence/convert_ovs.py:ruleset_to_ovs", "ofequivalence/convert_ovs.py:ruleset_from_ovs", "ofequivalence/check_equivalence.py:main"]}
{"id": "C92", "title": "check_equivalence always answers on ordinary rulesets", "statement": "Let the files of a command line of check_equivalence load into well-formed rules (goto only to higher tables; tags pushed or popped only by written actions) with a rule in table 0, priorities below 2^16, and actions other than GROUP with the kind of value that each takes (numbers, none, or a settable field with a number). Then the command raises no exception: it prints the usage for no name, nothing for one, and for more names it prints lines, with two names on one line exactly when the single tables of their rulesets prescribe the same actions for every packet. With the divide-and-conquer build this also needs that a table with a rule of priority 0 matches every packet; with -D also that rules come with empty paths.", "quantifier": "every number of files, every loader, every ruleset of any number of tables and rules, every combination of the options", "why_tests_cant": "an exception in the middle of a comparison depends on which actions of which rules meet in the merged rules; tests compare a few small rulesets and never mix groups, missing defaults and builders", "anchors": ["ofequivalence/check_equivalence.py:main", "ofequivalence/ruleset.py:to_single_table", "ofequivalence/normalisebdd.py:normalise_naive", "ofequivalence/normalisebdd.py:normalise_divide_and_conquer", "ofequivalence/rule.py:ActionList.per_output_actions", "ofequivalence/rule.py:Rule.merge"]}
{"id": "C93", "title": "Routing tables through check_equivalence", "statement": "Given two or more different names of files with routing tables, none empty, under --fib, check_equivalence always prints lines, whatever the other options. It puts two files on one line exactly when every 32-bit address gets the same number in both: the number of the peer of its longest prefix, the first of equal ones, with the peers counted from 1 by first appearance in the file, or in neither file any route. If the peers are numbered alike this is the same next hop for every address.", "quantifier": "every number of files, every text that is a routing table of any length, every address, both settings of both options", "why_tests_cant": "the answer goes through the text reader, the prefix arithmetic, the single table, the BDDs and the division by outputs; tests compare a few prefixes and cannot range over all 2^32 addresses for every table; they do not reorder the lines of a table", "anchors": ["ofequivalence/check_equivalence.py:main", "ofequivalence/convert_fib.py:ruleset_from_fib", "ofequivalence/convert_ruleset.py:load_ruleset", "ofequivalence/ruleset.py:to_single_table", "ofequivalence/normalisebdd.py:normalise_naive"]}
{"id": "C94", "title": "A ruleset and its conversion to Open vSwitch are reported equivalent", "statement": "Let a file load into well-formed rules that Open vSwitch text can carry (C75; with or without a cookie), with a rule in table 0, priorities below 2^16, and where a table with a rule of priority 0 matches every packet. Then convert_ruleset writes it as Open vSwitch flows, and check_equivalence given both files, in any order and with any options, raises no exception and prints both names on one line. In particular every routing table that is not empty is converted, and check_equivalence --fib table --ovs flows prints both on one line.", "quantifier": "every loader, every ruleset of any number of tables and rules, every routing table text, every combination of the options", "why_tests_cant": "needs writer, reader, single table, both BDD builds and the grouping to agree on every ruleset at once; a test fixes one file, and the project has no test that runs the two commands one after the other", "anchors": ["ofequivalence/convert_ruleset.py:main", "ofequivalence/convert_ovs.py:ruleset_to_ovs", "ofequivalence/convert_ovs.py:ruleset_from_ovs", "ofequivalence/check_equivalence.py:main", "ofequivalence/convert_fib.py:ruleset_from_fib"]}
{"id": "C95", "title": "graph_ruleset_deps --compress draws the ruleset unless two similar rules have no dependency", "statement": "Let the dependencies lead to later tables or lower priorities, not be empty, and let the compression succeed. With --compress build_graph fails, with a ValueError, exactly if two similar rules have no dependency. Otherwise it labels the rules that have a dependency in order, places them without two on one spot and with every dependency leading down, and fills exactly the representatives among them: each rule drawn has one filled node in its group. With --group compressed two rules drawn get the same number exactly if they are in one group, the numbers lie between 1 and the number of groups, and they increase with the table and as the priority falls. With --only-group it fails exactly if some rule has no dependency.", "quantifier": "every ruleset of well-formed rules, every set of forward dependencies, every order of set iteration, every --group option", "why_tests_cant": "the failing handler runs only for rules that are not nodes of the graph; whether it works depends on which rule of a group was chosen; the project has no test of the graph command", "anchors": ["ofequivalence/graph_ruleset_deps.py:build_graph", "ofequivalence/graph_ruleset_deps.py:number_groups", "ofequivalence/graph_ruleset_deps.py:directed_layout", "ofequivalence/ruleset.py:compress_ruleset", "ofequivalence/ruleset.py:create_similar_groups"]}
{"id": "C96", "title": "graph_ruleset_deps --compress draws every routing table", "statement": "Given a routing table of two or more different routes whose host bits are zero, among them the default route, graph_ruleset_deps with --input-format fib and --compress always draws it, for direct and indirect dependencies, with any --group option, with and without --only-group and with and without --no-table-miss: every route is labelled and placed, each prefix above the longest prefix that encloses it (indirect: above all that do), one route of each group of similar routes is filled (none with --only-group), and with --group compressed the numbers of two routes are equal exactly if they are in one group.", "quantifier": "every routing table text of any length, both dependency builders, every order of set iteration, every --group option", "why_tests_cant": "needs the prefix builder, the grouping, the selection and the layout to succeed together on every table; which route of a group is chosen depends on all others; the project has no test of the graph command", "anchors": ["ofequivalence/graph_ruleset_deps.py:build_graph", "ofequivalence/convert_fib.py:ruleset_from_fib", "ofequivalence/ruleset_deps_direct.py:build_prefix_table_deps", "ofequivalence/ruleset_deps_indirect.py:build_prefix_table_deps", "ofequivalence/ruleset.py:compress_ruleset"]}
{"id": "C97", "title": "Readers and writers get the file they ask for, and the caller's file stays usable", "statement": "as_file_handle passes the argument at its position, or by its name, to the function and leaves all other arguments as they are. A path is opened, compressed or decompressed by its ending .gz or .bz2, and closed in the end whatever the function does; the function runs as on a plain file with that content, what it wrote is on disk and no other file changes; what one function writes another reads back. A file object of the kind asked for, or a binary one where text is asked for, is passed on: the function runs as on a plain file of the kind asked for, its result or exception is the result, all it wrote has reached the object and the object is still open, at the position where the function stopped. A text object where bytes are asked for is refused and nothing happens to it.", "quantifier": "all functions that read and write their handle in any way and react to any error, all modes r, rb, w, wb, all file contents, all disks, every size of the buffers", "why_tests_cant": "text still in a buffer, a handle that is closed or read ahead, and an exception in the middle show only after the call; tests use files shorter than a buffer and do not go on using the handle", "anchors": ["ofequivalence/utils.py:as_file_handle", "ofequivalence/utils.py:open_compressed"]}
{"id": "C98", "title": "The report of differing paths can be read in one way only", "statement": "If the parts of the rules are shown on one line each, check_equivalence -D prints for each path its rules in order, six lines each, every rule but the first with a margin and exactly one arrow, at its match; then the paths it is related to, indented. Two reports that print the same relate the same paths to the same paths, and format_path prints different paths differently.", "quantifier": "all reports: any number of paths, related paths and rules, any texts without newlines", "why_tests_cant": "whether the layers of margins and separators can be confused depends on the contents; the project has no test of -D; the arrow depends on the number of lines being even", "anchors": ["ofequivalence/check_equivalence.py:format_path", "ofequivalence/check_equivalence.py:main", "ofequivalence/rule.py:Rule.__str__"]}
{"id": "C99", "title": "The text of a match tells the match", "statement": "For matches whose values and masks lie in the range of the format of their field (numbers not negative, 48, 128 or 32 bits for addresses) and whose field names have no colon, comma or newline, str(match) succeeds and is one line, and two matches with the same text have the same fields in the same order with the same values and masks, also where the field is unknown. So two paths that differ only in a match are printed differently by check_equivalence -D.", "quantifier": "all matches with any number of fields, all values in range, every assignment of formats to fields", "why_tests_cant": "values of up to 128 bits in five formats with and without masks; tests print a few matches and compare none", "anchors": ["ofequivalence/rule.py:Match.__str__", "ofequivalence/format_utils.py:FORMATTERS", "ofequivalence/check_equivalence.py:format_path"]}
{"id": "C100", "title": "The text of a rule tells the rule", "statement": "For rules with a match as in C99 and actions other than groups whose names have no quote, backslash or newline, str(rule) succeeds, shows each part on one line, and is the same for two rules only if they have the same priority, cookie, table, match, and instructions: goto, actions in order with their values, metadata, clear and meter. So check_equivalence -D prints the same report only for the same paths of the same rules.", "quantifier": "all rules with any number of fields, actions and instructions, all numbers, all reports", "why_tests_cant": "the texts of actions nest brackets, commas and quotes that the lists around them use as well; tests compare rules, not texts", "anchors": ["ofequivalence/rule.py:Rule.__str__", "ofequivalence/rule.py:Instructions.__str__", "ofequivalence/rule.py:ActionList.__str__", "ofequivalence/check_equivalence.py:main"]}
{"id": "C101", "title": "Guessing the format reads the same from a path and a binary file object", "statement": "Given a file object open for reading at its start, ruleset_from_auto returns what the first loader, in order of priority, that succeeds on the whole contents returns, and otherwise raises a ValueError: how far the failed loaders read, and how far their text wrappers read ahead, does not matter. For a path the same holds of the decompressed contents. Loaders do not close their handle.", "quantifier": "all lists of loaders, all programs of reads, writes and failures they may run, all contents, all chunk sizes, all codecs", "why_tests_cant": "depends on how far each failing loader read before the next starts and on buffers inside TextIOWrapper; tests load a few files by name", "anchors": ["ofequivalence/convert_ruleset.py:ruleset_from_auto", "ofequivalence/utils.py:as_file_handle", "ofequivalence/utils.py:open_compressed"]}
