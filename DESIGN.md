# Formal model of wandsdn/ofequivalence (Rocq/Coq 8.16.1)

Source read as text from /repo; nothing of it is built or run. Model and proofs are in
`rocq/theories`. `properties.jsonl` lists the properties (C01...), `MANIFEST.json` maps each to its
theorems, `seeded/LOG.jsonl` records the mutation rounds.

## Conventions

* Python integers are `Z` (`&`, `|`, `~`, `>>`, `<<` are `Z.land`, `Z.lor`, `Z.lnot`, `Z.shiftr`,
  `Z.shiftl`). The width of a wildcard is the real one (1584 tbits, `NB`).
* Every `Definition`/`Fixpoint` of the model carries a comment citing the file and lines it models,
  and says where it simplifies.
* Exceptions are values (`result`: `Ok x` or `Err KeyError` etc.). A theorem about a returned value
  says so (`... = Ok v -> ...`); a theorem called total says that no exception occurs.
* The Python process state that matters (the registry of OXM names and ids in
  `openflow_desc.oxm_name_to_id`, which grows) is threaded as a state monad over `registry`.
* Iteration order of Python sets and dicts keyed by sets is a parameter (`ord`, `kord`, ...) of the
  model; theorems quantify over it (any permutation).
* Loops are structural recursion, folds, or recursion on fuel that ends in an error value; theorems
  prove that the fuel used suffices.
* Specifications are in `Spec*.v` and do not use helpers of the model: `Spec.v` (packets, wildcards,
  matches), `SpecBdd.v`, `SpecAction.v` (dependency of actions, swaps), `SpecExec.v` (execution of
  actions on packets with VLAN/MPLS stacks and PBB nesting), `SpecSet.v` (action sets),
  `SpecPipeline.v` (multi-table pipeline), `SpecNormalise.v` (first match), `SpecEager.v`,
  `SpecLazy.v` (headers sent), `SpecTags.v`, `SpecTall.v`, `SpecTallTable.v` (tag stacks of any depth), `SpecText.v`, `SpecMisc.v`, `SpecDeps.v`,
  `SpecCompress.v`, `SpecCompressTool.v`, `SpecTool.v`, `SpecFibTool.v`, `SpecHspace.v`, `SpecLayout.v`, `SpecLayoutCompress.v`, `SpecRyu.v`,
  `SpecOvs.v` (grammar of Open vSwitch flows), `SpecLoad.v` (formats that names suggest).
* `Prop*.v` state the theorems, with Examples that meet their hypotheses and `Print Assumptions`.
* A property that the code violates has a theorem `..._refuted` with a concrete witness; what does
  hold is proved beside it. A manifest status `partial` means that the property as first written
  (in `properties.jsonl`) is not proved in full: its note says what is missing or false.

## Trusted base

* Coq's kernel, with its `vm_compute` machine. `coqchk` re-checks the compiled files.
* Axioms: none. `Print Assumptions` answers "Closed under the global context" for every theorem
  listed in MANIFEST.json. No `Axiom`, `Parameter`, section-less `Variable`, `Admitted`, functor or
  module type is used, and no kernel check is switched off. (`coqchk -o` lists seven constants of
  the standard library module `Coq.ssr.ssrunder`, which is sealed by a module type and gets loaded
  with the standard tactics; no theorem depends on them.)
* The reading of Python and C that the comments record. Nothing connects the text of /repo to the
  Gallina definitions except that reading.

## What is modelled, file by file

| file | modelled | not modelled |
|------|----------|--------------|
| openflow_desc.py | field table and widths, order and layout of the wildcard, `oxm_name_to_id` and its growing registry, action set order, the tables of dependent actions used by `ActionList` | `check_oxm_name`, `value_from_OFP`, instruction order, prerequisites text |
| headerspace.py | masks, `wildcard_intersect`, `wildcard_is_subset`, `wildcard_union_cover`, `compress_wildcard_list`, `morton_number`, `RMorton`, both conversions, `flow_wildcard_to_string`, class `headerspace` | `swap_bit_position`, `find_smallest_set_bit`, `flow_wildcard_read_field` (they index the wildcard, which an integer does not allow; nothing calls them) |
| utils.py, c_src/utils.c | `AttachBDD` (attaching), `AlphaInt`, the C versions of `morton_number` and `flow_wildcard_to_fields`, `as_file_handle` and `open_compressed` (Python 3, ASCII contents; Files.v; with the retries of `ruleset_from_auto` in FilesAuto.v) | timers, the file classes of the standard library beyond what Files.v states |
| bdd.py | node creation, cache, all operators, `to_wc`/iterator; the engine with heap, weak cache and LRU caches | CPython's garbage collector (any eviction is allowed), recursion beyond 1586 frames |
| cbdd.py, cbddmodule.cpp | the recursion and results; the engine with memory, reference counts, NODE_CACHE, LRU caches, collector and threshold | hash values, friendly names, the memory of the `lru` package, direct use of nodes by Python code |
| cuddbdd.py, cuddmodule.c | the operators passed to `Cudd_addApply`, terminals packed in doubles, builders, path iterator; CuddRefs.v: every Cudd_Ref and Cudd_Deref of the objects | CUDD itself (contract: canonical ADDs, apply applies the operator to terminals, calls that create nodes may free what is not referenced); iterators left half way |
| rule.py | `Match`, `ActionList`, `ActionSet`, `Group`, `Instructions`, `Rule`, `UniqueRules`, merges, simulated egress, `Match.__str__` (MatchText.v), `Rule.__str__` (PathText.v), `__str__` of `ActionList` and `Instructions` (RuleText.v) | `__str__` of groups, pickling, attributes no algorithm reads |
| ruleset.py | scaling, defaults, condensation, egress with tag push/pop, path, sorting, `to_single_table` | progress output; `OverflowError` inside `single_table_condense` is an `Err` |
| normalisebdd.py | `normalise_naive`, `normalise_divide_and_conquer`, the three equality checks, `find_conflicting_paths`, `_collect_paths` | printing |
| normaliseheaderspace.py | `normalise`, `check_equal` with and without `diff`, `find_conflicting_paths` | - |
| check_equivalence.py | `main` after the arguments are parsed: loading, conversion, normalising, grouping, `-D`; `format_path` and the printing of the differences (PathText.v) | argparse, timings |
| ruleset_deps_direct.py, ruleset_deps_indirect.py | all builders (BDD, wildcard and headerspace variants, incremental, prefix, multi-table) | `networkx` import paths (`node_to_tree` is modelled) |
| ruleset.py, compression | similar groups, selection, `simplify_tree` | `trepan` import fails (`ImportError`) |
| compress_ruleset.py | `main` after the arguments are parsed | argparse, timings |
| graph_ruleset_deps.py | `directed_layout`, `build_graph` after the dependencies: nodes, edges, groups, the labelling loop, filled nodes | command line, texts of labels, output formats, clusters |
| convert_fib.py, format_utils.py, limits.py | conversions and formatters | file handling |
| convert_ryu.py | rules, matches, actions, instructions and groups in both directions | Ryu itself (contract stated at the head of `Ryu.v`), json and pickle files, group and port names |
| convert_ttp.py | all functions | ttp_tools (its objects are records), warnings, text in place of numbers other than in SET_FIELD |
| convert_ovs.py | all functions, reader and writer, with the part of `re` they use (a backtracking matcher) | command line, log messages, non-ASCII text |
| convert_ruleset.py | `ruleset_from_auto`, `load_ruleset`, `save_ruleset`, `main`; json, pickle and the writers but that of Open vSwitch are arguments | printing, standard input |

Further simplifications that several models share:

* Rule objects are compared by identity in Python where the model uses positions in the list; two
  distinct objects are never the same position.
* A packet of `SpecExec.v` has one frame with a VLAN stack and an MPLS stack, frames nested by PBB,
  and a map for the other fields. `Spec.v` packets are assignments of the 1584 header bits.
* A table miss is read as in the code's default rules: the packet leaves the pipeline and its action
  set is executed. Theorems about a switch that drops on a miss are stated separately
  (`..._no_misses`, `C38_miss_refuted`).
* Where the code relies on `sys.maxsize`/digit size (`normalise_divide_and_conquer` uses 30-bit
  Python digits) the theorems quantify over any even digit size.

## Properties

| id | property | status | how proved | remarks |
|----|----------|--------|------------|---------|
| C01 | Wildcard intersection is packet-set intersection | proved | bit-level extensionality of `Z.land` on the Morton encoding |  |
| C02 | Wildcard subset test decides packet-set inclusion | proved | same |  |
| C03 | Cover union is the least enclosing wildcard | proved | same; least upper bound |  |
| C04 | A Match's wildcard accepts exactly the packets its fields describe | proved | induction over the items of a match, disjoint slots of the layout |  |
| C05 | Converting a wildcard to a Match and back is the identity | proved | bit-level, induction over the field table |  |
| C06 | Intersecting disjoint matches yields an empty match | partial | refutation by computation; exact condition | False of the code: intersecting disjoint matches raises KeyError. The partial theorem says exactly when. |
| C07 | All morton_number implementations interleave bits exactly and agree | proved | induction on words; the table lookups by a sweep over the whole finite table inside the proof |  |
| C08 | Wildcards are canonical for packet sets | proved | wildcards determined by their packets |  |
| C09 | Match bookkeeping stays consistent under every operation sequence | proved | invariant over operation sequences |  |
| C10 | headerspace objects denote the right packet sets; emptiness verdicts are right | partial | denotation; refutation | Denotations and soundness of is_empty proved; completeness of is_empty is false of the code (witness: everything minus its two halves). |
| C11 | A rule's BDD maps exactly the matching packets to the rule's action | proved | induction on the tbits |  |
| C12 | Melding is priority union | proved | induction on diagrams (pairs) |  |
| C13 | subtract and intersection are pointwise | proved | same |  |
| C14 | BDD equality is semantic equality | proved | canonicity of reduced ordered diagrams |  |
| C15 | Results do not depend on caches or on the history of the process | proved | refinement of the heap engine to trees, invariant over all engine programs | Every program of engine calls, every eviction policy. Assumes 1586 stack frames for the recursion; with the default CPython limit of 1000 a RecursionError is possible (refuted theorem). |
| C16 | difference reports exactly the packets that differ | partial | same as C12; refutation | False in general: where the first table is undefined in a whole region the difference over-reports. Soundness, exactness under an inclusion of domains, and empty-iff-equal are proved. |
| C17 | Tagged difference carries both actions losslessly | proved | arithmetic of packed terminals |  |
| C18 | Enumerating a BDD yields a partition of the defined packets | proved | induction on diagrams |  |
| C19 | The three BDD backends compute the same functions | proved | C12-C18 for each backend |  |
| C20 | Naive normalisation is first-match semantics | proved | fold over the rules with the meld semantics of C12 |  |
| C21 | Divide and conquer agrees with naive normalisation | proved | merge loop invariant: the list of partial tables keeps the first-match function | Both modes (with and without match_redundancy). |
| C22 | check_equal decides forwarding equality of single tables | proved | C20 + canonicity + C30 | CUDD backend, 30-bit Python digits (even digit size). |
| C23 | Equivalent rulesets are grouped exactly | proved | invariant of the grouping loop |  |
| C24 | Differing traffic is attributed to the right paths | partial | invariant of the loop over paths | _collect_paths proved in full. find_conflicting_paths is wrong when different original rules carry equal paths (witness) and proved when equal paths imply equal matches and no path is empty, which is proved of the outputs of to_single_table. |
| C25 | Eager set-field normalisation is sound and complete for set-field/output rules | partial | strip lemmas per port, trace equivalence, canonical dict per cell | Proved (sound and complete, every set iteration order, both normalisers) for rules that set header fields and output to each port once; when some packet misses, a miss is not the same as sending nothing. Each restriction is shown necessary by a refutation: miss against drop, two copies on one port, VLAN id without present bit. |
| C26 | Lazy match-redundancy check is sound and total | partial | paths of the tagged difference (C17, C18), no-op set fields on packets that carry the matched values | True is sound for rules that execute lists without MPLS pushes and PBB in which each port occurs once, for every visiting order of the ports; a Boolean is returned when every packet hits a rule on both sides, rules only set fields and output and no inner tag is matched. Refuted in general: TypeError where only one side has a rule, KeyError where the tables differ under an inner tag match, and True for tables of which one sends a port a second copy. |
| C27 | ActionList order is canonical for the dependency relation | proved | trace theory: Foata normal form |  |
| C28 | Reordering allowed by the dependency table never changes the packet | partial | case analysis over all pairs of action kinds against `SpecExec` | False for PUSH_PBB/POP_PBB against VLAN and MPLS actions (nested frames); proved for every other pair and every list without such a pair. |
| C29 | Removing actions leaves the remaining actions intact | partial | refutation; canonical case | remove() loses an action when the actions were not appended in canonical order (witness); right for canonical order, and copy() with none or several removals is always right. |
| C30 | per_output_actions equality implies equal forwarding | partial | invariant of the per-port split, sorting canonical | False when a port is written twice, for select groups and for MPLS push/pop; proved for each port at most once, all/indirect groups nested to any depth, no PUSH_MPLS/PUSH_PBB/POP_PBB. |
| C31 | Redundancy removal preserves the effect on packets | partial | rewriting steps preserve the run; measure for termination | False for MPLS push/pop pairs; effect preserved for lists without PUSH_MPLS/PUSH_PBB/POP_PBB with outputs last; termination proved for all lists of known actions. |
| C32 | An action set holds at most one action of each kind in execution order | proved | invariant over appends |  |
| C33 | Merging instructions is OpenFlow sequential composition | proved | C32 + trace equivalence |  |
| C34 | A merged rule matches exactly the packets that hit both rules | proved | match semantics with the written fields | Rules whose apply-actions do not push or pop tags. |
| C35 | Metadata writes compose | proved | mask algebra |  |
| C36 | A merged rule does what the two rules do in sequence | partial | C33-C35 | Proved for rules without tag push/pop; the meter instruction is dropped by the merge (witness). |
| C37 | Scaled priorities add up lexicographically | proved | arithmetic with the scale bounds |  |
| C38 | The single table forwards every packet like the multi-table pipeline | partial | simulation between condensed rules and the pipeline, induction on the remaining tables | Proved for rules without tag push/pop when a table with a priority-0 rule matches every packet; a table miss executes the action set (the standard drops: refuted), and a partial priority-0 rule suppresses the default (refuted). |
| C39 | Every packet is handled after default filling | partial | from C38 | False when a table has a priority-0 rule that does not match everything (witness); proved otherwise. |
| C40 | Condensing keeps priority order | partial | order of the condensation | With ties among overlapping rules re-sorting changes the rule hit (witness); proved without such ties. |
| C41 | Tag demotion and promotion are inverse | partial | permutation of numbered fields | False: UnboundLocalError instead of OverflowError; a match on two levels is not restored (witnesses). |
| C42 | Push/pop aware egress is sound | partial | simulation on tag stacks | Proved for rules whose tag operations only copy known values; false otherwise (two witnesses). Deeper tags than the model header are arbitrary. |
| C43 | Direct dependencies are exactly the fall-through rules | proved | loop invariant: remaining packets | Exact for every run that returns, on every table; a run can raise when a lowest-priority rule pushes more tags than the header has (witness). |
| C44 | Edge packet-spaces partition each rule's traffic | proved | same |  |
| C45 | Incremental DAG construction equals the offline construction | partial | insertion invariant (C66) over all insertion orders | Proved when the default is the only rule matching everything, and then for tables whose equal-priority rules are disjoint (weaker than distinct priorities). As stated it is refuted: a second match-all rule is taken for the default. |
| C46 | Prefix-table dependencies are the enclosing prefixes | proved | prefix lengths order enclosing prefixes | Both builders, BDD and wildcard variants, for all tables of distinct prefixes with a 0.0.0.0/0 rule, and agreement with the general builders. A default with an empty match is a KeyError (witness). |
| C47 | Indirect in-table dependencies are exactly the overlapping lower-priority rules | proved | loop invariant |  |
| C48 | The headerspace variant never misses a dependency | partial | denotation of headerspace differences | No edge is missed and every reported space is exact; the edges are not the same: the headerspace variant also reports edges with an empty space (witness). |
| C49 | Compression groups partition the ruleset | partial | partition refinement invariant, coarsest by induction over splits | Coarsest partition into groups of similar rules with the same dependencies, for all rulesets where it returns; it raises a TypeError (witness) exactly in sorts that meet two alike rules of which one sets a field the other does not. Actions are the 16 of OpenFlow 1.3. |
| C50 | The compressed ruleset picks one representative per group | proved | invariant of the selection | For every iteration order, every run that returns. The dependencies are any list over the rules. |
| C51 | simplify_tree removes exactly the transitive edges | proved | descendants preserved; acyclicity | All acyclic graphs without duplicate edges; recursion deeper than the number of nodes is not needed. |
| C52 | Letter numbering is a bijection | proved | bijective base 26 |  |
| C53 | The automatic memory limit respects its bounds | partial | arithmetic | The bounds are proved for integer max_res; the documented max_res=None raises TypeError (witness). |
| C54 | IPv4 and Ethernet formatting round-trips | proved | string/number induction |  |
| C55 | IPv6 formatting round-trips | partial | refutation | False for every address: the formatter writes sixteen groups of two digits, which the parser does not read back. The parser alone is right on eight-group texts. |
| C56 | A converted FIB does longest-prefix matching | proved | prefix order vs priority |  |
| C57 | UniqueRules nests and restores | partial | state machine induction over programs | Proved for programs that create a new object per with statement; false when one object is entered twice (witness). |
| C58 | Field ids are unique and stable | proved | injectivity + growth of the registry |  |
| C59 | The headerspace normaliser's verdicts are sound | proved | sign-vector cells | True means every packet is treated alike, for every iteration order of the sets; C59_exact says what is compared. The converse is not claimed and is refuted; an empty ruleset raises KeyError (C59_empty). |
| C60 | Bit-reversal preserves equivalence | partial | bit reversal is an involution | Fails on Python 3; on Python 2 masks are computed from the value and write_actions are left alone (witnesses). Proved for exact matches and apply_actions without ethertype pushes, PBB and groups. |
| C61 | Sorting a ruleset is a stable priority sort | proved | stable insertion sort |  |
| C62 | The recorded path is the packet's route | proved | path recorded by the C38 simulation | Rules without tag push/pop; a table with a priority-0 rule matches every packet. |
| C63 | Equal verdict means equal forwarding, end to end | proved | C38 + C22 + C30 | Same conditions as C38 and C30 (plain actions, each port once). |
| C64 | Compressed IPv6 addresses parse to the right value | partial | string induction | Seven groups with a leading or trailing "::" raise AssertionError (witness); proved for all other compressed texts. |
| C65 | normalise_string inverts every formatter | partial | string induction | Negative hex values are refuted (witness), everything else proved. |
| C66 | Inserting a rule into the dependency graph keeps it exact | proved | invariant of the graph |  |
| C67 | Direct dependencies of a multi-table ruleset | proved | C43 per table + goto edges | Rules with a goto must not push or pop tags; the incremental builder needs a unique default rule per table and disjoint rules of equal priority (see C45). |
| C68 | Indirect dependencies of a multi-table ruleset | partial | recursion over gotos | Exact when every goto leads to a table that has rules; otherwise RuntimeError (witness). Rules with a goto must not push or pop tags. |
| C69 | Compressed rules depend on each other as their groups do | partial | C50 + dependency edges | Proved for every run that returns. Totality is refuted: on a ruleset of seven rules no choice exists and the code ends in an ImportError. |
| C70 | The layered drawing puts children below their parents | partial | levels: invariant over the sorted insertion, push down preserves it; rational arithmetic for the positions | All flags and groupings; positions are exact rationals where the code uses floats. push_down moves a node down one level only, so "as low as possible" is refuted; an empty graph raises StopIteration (C70_empty). |
| C71 | Compressing a list of wildcards | proved | which positions are popped, antisymmetry of inclusion | All lists of proper wildcards. |
| C72 | The text of a wildcard | partial | bit arithmetic of the loop; equal lengths make the text injective | Proved for proper wildcards and for closed padding. A z is reported when a higher tbit of its field is not z (C72_z_partial); one at the top of its field is dropped silently (refuted with a witness). |
| C73 | Rules survive the way to Ryu and back | partial | bytes with few separators take the last branch of normalise_bytes; sorting is a permutation; C27, C32 for the actions | Proved for rulesets in which no value, written as bytes, looks like the text of an address (five or seven colons, "::", three dots, five dashes) and masked values have no bits outside the mask. Refuted in general: normalise_bytes reads the raw bytes of TCP port 14906 (0x3a3a, "::") as the IPv6 address 0, and those of 58.58.1.2 raise ValueError. Ryu objects are modelled by their contract. |
| C74 | Groups sent to Ryu | partial | induction on nested groups; numbers form a block of the counter modulo 2^16 | References and meaning for all nestings. Numbers are distinct for up to 65536 groups numbered by the counter; refuted for interface groups, which can collide with counted ones. Without a Table Type Pattern every Group object raises AttributeError (C74_no_pattern). |
| C75 | Rules survive the way to Open vSwitch text and back | partial | the written text is a text of the grammar of C76, then C76 | Proved for all rules with a cookie and without a meter over 33 fields and the actions that are written. False outside: IPv6 addresses come back as other numbers, IPV6_FLABEL, groups and TTL copies raise NotImplementedError, the CFI bit of a VLAN id set by set_field, the cookie None and the meter are lost. |
| C76 | The reader of Open vSwitch flows understands the documented syntax | partial | a backtracking regular expression matcher; each token pattern accepts exactly one prefix; induction over the list of tokens | Proved for every line of the grammar of SpecOvs.v whose actions ActionList and ActionSet accept, in every table of groups. The parts of the documented syntax that are read as something else are refuted by witnesses: resubmit with two digits, unknown actions end the line, short IPv6 prefixes, vlan_tci, tp_dst of UDP, port names in a match, mod_nw_tos. |
| C77 | The reader of Open vSwitch files understands groups | partial | the bucket expression matches exactly at the separators before "bucket="; induction over buckets, then over lines | Proved for every file whose groups use only groups on earlier lines and have at least one bucket, each with "actions=". Refuted by witnesses: a group without buckets raises UnboundLocalError, a group that uses a later one raises KeyError, a bucket without "actions=" or with an upper-case action is read as empty. |
| C78 | Loading a file without naming its format | partial | the routing table reader raises on the first word that is no prefix; induction over the order of the loaders | Proved for written and dumped Open vSwitch files and for routing tables, when the json and pickle libraries refuse the file (contract). Refuted: the Open vSwitch loader accepts every text without flows, so text of no format, or a routing table with one bad line, loads as the empty ruleset, as does every routing table whose file name mentions ovs but not fib. |
| C79 | Merging a rule that pushes and pops tags | partial | invariant of the simulated actions: which level of the packet each unwritten tag field came from; the second match is moved in by that many levels; independent actions commute on packets with tag stacks | Proved when both rules match on outermost tags only, every push of the first copies tags it matches on or has set (at most two deep), no pop follows two pushes, and no action sets METADATA. Every failure is characterised: a tag more than two levels deep raises UnboundLocalError, OpenFlow rules that would need an inner tag raise MergeException. Refuted for a push of a tag that is not matched on: the copy is taken to be 0 and reachable rules are lost. |
| C80 | The node collector of the C BDD engine | proved | loop invariant: the list to remove is exactly the nodes only NODE_CACHE refers to; counts are sums over all pointers | For every memory that is in order (tidy, SpecGc.v); C81 shows that every memory a program produces is. |
| C81 | Clients of the C BDD engine with caches and collections | proved | invariant of memory, caches and pending references through the recursion; an entry of RULE_CACHE keeps its terminal alive because the terminal is a leaf of the cached root | The C stack must have NB + 2 = 1586 frames for the recursion. Hash values and the friendly names of terminals are left out. |
| C82 | The cleanup threshold of the C BDD engine | partial | case split | Proved for numbers that are not negative. Refuted for negative ones: the number is stored before it is tested, so ValueError is raised and every later operation collects. |
| C83 | The single table of rules that push and pop tags | partial | the simulation of C38 on packets with tag stacks; each merge by C79 or by the merge of plain rules | Proved for rules that push and pop freely where they have no goto; a rule with a goto either has no tag operations, or (openflow=False) is in table 0, can be followed as in C79 and goes to a table without gotos. Refuted for the default openflow=True: the MergeException for a match on an inner tag is swallowed by single_table_condense, the rule is lost, and two rulesets that forward differently get equal tables. |
| C84 | The CUDD backend never uses a freed node | proved | invariant: the references are a permutation of DIFFERS, the roots of the existing objects and the leaked ones; so every root is protected when a call may collect | CUDD is modelled by its contract: nodes are their structure, each call that creates a node may collect all that is not below a referenced one. The statement excludes None and uninitialised BDDs as arguments; for those a NULL pointer is followed (refuted witnesses). Iterators left half way and overflow of counts are not modelled. |
| C85 | The CUDD backend gives its references back | partial | the same invariant gives the exact multiset; induction over the loop of wc_to_BDD for the leaked nodes | The exact multiset of outstanding references is proved for all programs: besides the module and the existing BDDs there is one for every node below the root of each BDD made from a wildcard, that is one per exact bit, and one per repeated __init__. So the claim holds only for programs without those (partial), is refuted by one BDD built and dropped, and the references grow without bound. |
| C86 | Reading the flows of a Table Type Pattern | partial | the loop over the actions is the loop over the definite ones; induction over the instructions, last of each kind wins | What is read is proved for all flows: the definite actions, in order. Every action is kept only if all are definite (partial); refuted otherwise: setting a field to a variable, and an action the module does not know, are left out and the conversion succeeds. |
| C87 | The differences reported by the headerspace normaliser | partial | each key of the two dicts is a live set of signs of the wildcards; the first wildcard with a positive sign decides; induction over the loops of find_conflicting_paths | When it returns, the verdict and the cells are exact, and it returns whenever both tables have a default rule. Refuted: an assert fails instead of the tuple when some packet is handled by one table only (C87_no_report: always then). The paths are complete and sound up to shadowing; refuted: paths through shadowed rules are related too (the source warns of it). |
| C88 | The command check_equivalence from end to end | partial | invariant of the loop over the rulesets: each canonical form means what its single table prescribes under the action table so far, which only grows; a stable sort keeps which rule of a table is hit; then C23, C24, C38 and C62 | The lines are proved exact for any number of rulesets. The report is exact for the pairs it covers when no two rules of a table tie on a common packet (partial). Refuted: it compares each line with the next one, not the first with each as the help says; a file given twice, to be read in two formats, is compared with nothing. |
| C89 | The command compress_ruleset from end to end | partial | decomposition of a successful run; C67, C68, C46 for the edges of each option, C50 and C69 for the groups; for routing tables the reader gives canonical prefixes, enclosing prefixes form a chain, then C90 | Proved for every run that returns; success is proved for routing tables (and see C90). With --direct the tables must have default rules and rules of one priority must not overlap (the builder needs it, C45), and with --headerspace --direct rules with gotos are excluded. Refuted: the file has all rules, sorted, not the compressed ones. --input-format fib with --bdd or --headerspace but not --direct always fails (C89_fib_extra). The readers and writers are arguments. |
| C90 | Compression succeeds where dependencies form chains | proved | invariant of the selection: the rules chosen contain all rules they depend on; the rule of the next group above the chosen representative of its first dependency fits | Also assumes that no two rules alike differ in which fields they set (C49). |
| C91 | Equal rules forward alike; converting to Open vSwitch changes nothing | partial | induction over the pipeline: equal rules match alike, change the header alike, and apply the same actions up to swaps of independent ones; the single tables then have the same canonical action lists; reading back gives equal rules by C75 and C78 | Equal rules are proved to forward alike when the actions executed do not combine pushing or popping a PBB tag with actions on what it hides (independent for the code, C28); converted rules need no such assumption. One line is proved for runs of check_equivalence that return, on rulesets without tag operations whose tables with a rule of priority 0 match every packet. Which fields and actions the text carries is in C75. |
| C92 | check_equivalence always answers on ordinary rulesets | proved | the actions of all rules form a pool any two of which can be compared; the pool is kept by every merge, and every step succeeds on lists from the pool; induction over the rulesets with the registry and the action table | Proved without bounds under the stated conditions. Each condition is needed: refuted with witnesses for groups in two tables (TypeError), for the divide-and-conquer build without the condition on defaults (AssertionError where the plain build answers) and for a file without rules (AssertionError). |
| C93 | Routing tables through check_equivalence | partial | C78 for the reader, C92 for the answer and C88 for the line; the single table of a routing table executes the output of the longest prefix because the prefix length is the priority | The line printed is characterised exactly, from the text of the files to the output. What a user of routing tables means, the same next hop for every address, is proved only if the peers are numbered alike; without that it is refuted both ways by one run on three files: the same routes in another order are on different lines, and a table that sends every address to another peer is on the same line. |
| C94 | A ruleset and its conversion to Open vSwitch are reported equivalent | proved | rules alike but for the cookie run the same pipeline, equal rules run it up to swaps (C91); the actions of both files are ordinary, so C92 gives the answer; the rules read from a routing table are shown to be writable | Proved without bounds under the stated conditions, from the text of the files to the lines printed. The loading must leave the registry of fields as it was (true of routing tables and of rules without numbered inner tags). Outside what Open vSwitch text carries see the refutations of C75. |
| C95 | graph_ruleset_deps --compress draws the ruleset unless two similar rules have no dependency | proved | the groups are the coarsest partition (C49), so similar isolated rules share a group and all but one are not chosen; invariant of the labelling loop over representatives and groups; the numbers respect the sort keys, so C70 gives the drawing | Proved as an exact condition, with the drawing that results. That the drawing succeeds whenever the compression does is refuted by a ruleset of four rules with its own dependencies. The labels are taken to be formatted without error and no two rules to be equal. |
| C96 | graph_ruleset_deps --compress draws every routing table | partial | every prefix but the default lies in it and so has a longest enclosing prefix, and by descent some prefix has the default as its longest, so no rule is isolated; then C46 for the edges, C90 for the compression and C95 for the drawing | Proved without bounds from the text of the table on without --no-table-miss. With --no-table-miss it is refuted: two prefixes of equal length that lie in the default route only lose their dependencies, and the command fails with a ValueError. |
| C97 | Readers and writers get the file they ask for, and the caller's file stays usable | partial | simulation: the handle with its read-ahead and pending characters represents a plain file; induction over the program of the function; detach and close write out what is pending | Proved without bounds, by simulation with a plain file, for functions that do not close their handle, except three parts that are refuted: a function that closes a binary object opened as text gets a ValueError from detach; the position of such an object after reading is beyond where the function stopped (proved instead: what is left is a suffix of it); the readers, which are decorated without a name, fail with an IndexError if the file is passed by name. Python 3, ASCII contents. |
| C98 | The report of differing paths can be read in one way only | proved | the text is the concatenation of lines, which splitting recovers; no line of a path is empty, so the empty line and the line with a tab separate; induction over the report | Proved without bounds under the stated condition. That the condition is needed is shown by a rule with a newline in its cookie, printed without any arrow. The texts of matches and instructions are given. |
| C99 | The text of a match tells the match | proved | each formatter writes digits and its own separator only, and is injective (C54, C65; IPv6 from the digits); then the slash, the colon and the comma separate | Proved without bounds under the stated conditions. Out of range it is refuted: two numbers of 49 bits give the same MAC address, because the last hexadecimal digit is dropped. |
| C100 | The text of a rule tells the rule | proved | each piece is determined by any text that starts with it and goes on with a comma or bracket; induction over the lists; then C99 and C98 | Proved without bounds under the stated conditions. Python 3, where repr of a name puts it in single quotes (names with quotes, which repr escapes, are left out). The actions are those that iterating over the list gives, which is by dependency levels. Groups are not covered. |
| C101 | Guessing the format reads the same from a path and a binary file object | partial | each attempt is an instance of C97, after which seek restores the contents; induction over the loaders, with the invariant that the object is open, readable and unwritten | Proved without bounds for paths and binary file objects at their start. Refuted for text file objects: the loaders of bytes (pickles, routing tables) refuse them, so such contents do not load (proved instead: the first of the text loaders that succeeds decides). That the object is at its start is needed: otherwise the first loader sees only the rest and the others the whole file. Python 3, ASCII contents, file objects that can be repositioned. |

## Defects of the code that the model exposes

Proved as `..._refuted` (see the table) or noted while modelling:

* `Match.intersection` of disjoint matches raises KeyError (C06).
* Emptiness of a `headerspace` is incomplete (C10); `difference` over-reports (C16).
* The recursion of the Python BDD engine needs more frames than CPython's default limit (C15).
* `find_conflicting_paths` mixes up rules with equal paths (C24).
* `normalise_set_fields`: miss against drop, repeated ports, VLAN id without present bit (C25).
* `check_equal_match_redundancy`: TypeError when one side is undefined, KeyError for numbered (inner
  tag) fields, blind to repeated ports (C26).
* The dependency table allows PBB swaps that change the packet (C28); `ActionList.remove` (C29);
  repeated ports, select groups, MPLS in `per_output_actions` (C30), MPLS pairs (C31).
* `Instructions.merge` drops the meter (C36). Table-miss treatment (C38), partial priority-0 rule
  (C38, C39), ties (C40), UnboundLocalError and lossy tag levels (C41), unknown tags (C42).
* `build_ruleset_deps` compares `build_table_deps == build_table_deps_incremental` (always False);
  `build_prefix_table_deps` of the indirect module takes no `use_bdd`; a goto to a missing table is a
  RuntimeError in the indirect builder (C68); a second match-all rule (C45); empty default (C46).
* Compression: TypeError for mixed action types on Python 3 (C49), ImportError for `trepan` when no
  choice fits (C69), IndexError for an empty ruleset; compress_ruleset.py:110 saves the original.
* `max_res=None` (C53), IPv6 formatter and parser (C55, C64), negative hex (C65), `UniqueRules` re-entry
  (C57), bit reversal on Python 3 and of masks (C60).
* Headerspace normaliser: KeyError for empty rulesets, incomplete for jointly covered cells (C59).
* Merge exceptions other than the expected ones silently drop rules in `single_table_condense`;
  `scale_ruleset` changes the rules in place.
* convert_ovs: `IPV6_FLABAL`, shorthand 3-tuples, PCP shift by 9, SET_FIELD VLAN_VID without present bit.
* `format_utils.normalise_bytes` guesses whether bytes are text or a number by counting separators,
  and `match_from_ryu` gives it raw bytes. TCP port 14906 (`"::"`) comes back as 0, and address
  58.58.1.2 raises `ValueError` (C73).
* `convert_ryu.group_to_ryu` needs `ttp_link`: a `Group` read from anywhere but a Table Type Pattern
  raises `AttributeError`; an unknown link name leaves `type_` unbound; numbers of L2 interface
  groups can collide with counted ones (C74).
* `convert_ovs` reads an action it does not know, and `resubmit(,10)`, as the end of the line: the
  rest of the actions is dropped without an error (C76). Short IPv6 prefixes become masks, `in_port=LOCAL`
  the bytes of the name, `tp_dst` of UDP flows `TCP_DST`. Written IPv6 addresses cannot be read, the
  meter and the cookie None are lost (C75).
* `_parse_group` raises UnboundLocalError for a group without buckets and KeyError for a group that
  uses one on a later line; a bucket without `actions=`, or whose actions are in upper case, is read as
  empty (C77).
* `ruleset_from_auto` never reports an unknown format for text without `actions=` and `group_id=`: the
  Open vSwitch loader comes last and reads it as the empty ruleset. A routing table with an empty line
  is lost this way, and every one whose file name mentions `ovs` but not `fib` (C78).
* `set_cleanup_threshold` stores a negative number before it raises `ValueError`: the caller sees a
  rejection, but from then on every BDD operation collects (C82).
* `single_table_condense` swallows the `MergeException` that `to_single_table` documents for results that
  are not OpenFlow. With the default `openflow=True`, which `check_equivalence.py` uses, a rule behind a pop that
  matches on the next tag is lost, and rulesets that forward differently compare as equivalent (C83).
* `cuddmodule.c:wc_to_BDD` references every node of the chain it builds and gives none back but the root's
  (the TODO in the source asks whether it should): each BDD made from a wildcard keeps one reference per exact bit for ever,
  so the memory of CUDD grows with the number of rules ever converted. `BDD.__init__` on an existing BDD leaks its root (C85).
* `READY_BDD_TYPE` turns None into NULL, and the five operators follow that pointer: `meld(b, None)`
  crashes the interpreter (C84).
* `convert_ttp.actions_from_ttp` prints a warning and goes on when SET_FIELD has no fixed value or the action is unknown, and
  drops SET_FIELD of a field whose name starts with `$` silently: the rule lacks the action (C86).
* `normaliseheaderspace.check_equal(diff=True)` asserts that both dicts have the same keys, so it raises `AssertionError`
  whenever some packet is handled by one of the tables only (C87).
* `check_equivalence -D` says it prints the difference between the first and each differing ruleset; it compares each line with the next,
  so the first and the third are never compared (C88).
* `check_equivalence` keys the rulesets by file name: a file given twice, e.g. `--ovs x --fib x` or `-` for two
  formats, replaces the first reading, and the command ends with status 0 without a verdict (C88).
* `compress_ruleset --output` writes the sorted input (`save_ruleset(ruleset, ...)`), not the compressed ruleset its help
  announces (C89). `save_ruleset` ignores an unknown format silently.
* `compress_ruleset --input-format fib` with `--bdd` or `--headerspace` but without `--direct` always ends in a TypeError: the indirect prefix
  builder takes no `use_bdd` (C89). A routing table without a default route fails an assertion or a lookup.
* `ruleset_deps_direct.build_ruleset_deps` compares `build_table` with a function it is never equal to, so with `use_bdd=False`
  the incremental BDD builder still runs and the dict of dependencies mixes BDDs and headerspaces (C89).
* `check_equivalence` fails with a TypeError on a valid ruleset in which a packet meets a group in each of two tables: groups that do not
  depend on each other are sorted, and Group has no order. With the divide-and-conquer build it fails with an AssertionError when a
  ruleset condenses to no rule, where the plain build answers (C92).
* `check_equivalence --fib` compares output ports that `ruleset_from_fib` numbers per file by first appearance of the peer. The same routes
  in another order can be reported different, and tables with different peers for every address can be reported the same (C93).
* `graph_ruleset_deps --compress` fails with a ValueError when two similar rules have no dependency, and `--only-group` when any rule has
  none: the handler for such rules removes them from a list of representatives in which they need not be (C95). On routing tables this happens with
  `--no-table-miss` whenever two routes of equal length lie in the default route only (C96).
* `as_file_handle` without `arg`, as on `ruleset_from_fib`, `ruleset_from_ovs`, `ruleset_from_pickle` and `ruleset_from_ryu_json`, raises an
  IndexError when the file is passed by keyword. After a text reader is given a binary handle the handle is left at the end of the
  characters read ahead, and a function that closes such a handle gets a ValueError from `detach` (C97).
