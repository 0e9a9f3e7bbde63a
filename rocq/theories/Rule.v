(** Rules. Models the data of ofequivalence/rule.py:113-152 and 285-300 (merge is in Merge.v).
    [core] is a Rule without its path; [path] is the tuple of original rules. A path entry is
    kept as a [core]: Rule.__eq__ ignores paths. cookie, priority and table are numbers here
    (None is not modelled), ttp_link is always None. *)
From Verif Require Export Actions.
Local Open Scope Z_scope.

Record core := mkCore { priority : Z; cookie : option Z; rmatch : Match; inst : instructions; table : Z }.
Record rule := mkRule { rcore : core; path : list core }.

(** rule.py:294-300 __eq__ *)
Definition core_eqb (a b : core) : bool :=
  (priority a =? priority b) && opt_eqb Z.eqb (cookie a) (cookie b) && match_eqb (rmatch a) (rmatch b) &&
  inst_eqb (inst a) (inst b) && (table a =? table b).

(** rule.match.get_wildcard(). The cache it fills is not kept: C09 shows that a cached value
    is the recomputed one. *)
Definition match_wc (m : Match) : result Z := do mw <- match_get_wildcard m; Ok (snd mw).
Definition rule_wc (r : rule) : result Z := match_wc (rmatch (rcore r)).
(** rule.instructions.full_actions().per_output_actions() *)
Definition rule_actions (r : rule) : result po_value :=
  do l <- full_actions (inst (rcore r)); per_output_actions l.
