(** Conversion of a multi-table ruleset to a single table. Models ofequivalence/ruleset.py:30-172
    (sort_ruleset is in Normalise.v). Python changes the Rule objects and the list in place; the
    functions here return the new list. [table_to_power] is recomputed from the position. *)
From Verif Require Export Merge.
Local Open Scope list_scope.
Local Open Scope Z_scope.

(** ruleset.py:31 *)
Definition MAX_PRIORITY : Z := 2 ^ 16.

(** sorted({x.table for x in ruleset}) *)
Fixpoint insert_table (t : Z) (l : list Z) : list Z :=
  match l with
  | [] => [t]
  | u :: r => if t <? u then t :: l else if t =? u then l else u :: insert_table t r
  end.
Definition tables_of (rs : list rule) : list Z := fold_right (fun r acc => insert_table (table (rcore r)) acc) [] rs.

(** ruleset.py:102-121 scale_ruleset *)
Fixpoint power_of (tables : list Z) (t : Z) : result Z :=
  match tables with
  | [] => Err KeyError
  | u :: r => if u =? t then Ok (Z.of_nat (List.length r)) else power_of r t
  end.
Definition with_priority (c : core) (p : Z) : core := mkCore p (cookie c) (rmatch c) (inst c) (table c).
Definition scale_rule (tables : list Z) (r : rule) : result rule :=
  if MAX_PRIORITY <=? priority (rcore r) then Err AssertionError else
  do k <- power_of tables (table (rcore r));
  Ok (mkRule (with_priority (rcore r) (priority (rcore r) * MAX_PRIORITY ^ k)) (path r)).
Definition scale_ruleset (rs : list rule) : result (list rule) := rall (map (scale_rule (tables_of rs)) rs).

(** ruleset.py:51-99 single_table_condense: a MergeException (of either class) is dropped, any
    other exception ends the call. Rule.copy() is the same rule. *)
Definition is_merge_exn (e : exn) : bool :=
  match e with MergeException | MergeExceptionNoOverlap => true | _ => false end.
Definition condense_pair (openflow : bool) (first : rule) (res : list rule) (second : rule) : st (list rule) :=
  fun r => match core_merge (rcore first) (rcore second) openflow r with
           | (r', Ok c) => (r', Ok (res ++ [mkRule c (path first ++ path second)]))
           | (r', Err e) => if is_merge_exn e then (r', Ok res) else (r', Err e)
           end.
Definition condense_rule (openflow : bool) (second : list rule) (second_num : Z) (res : list rule) (first : rule)
  : st (list rule) :=
  if opt_eqb Z.eqb (goto_table (inst (rcore first))) (Some second_num)
  then sfold (condense_pair openflow first) second res
  else sret (res ++ [first]).
Definition single_table_condense (first second : list rule) (second_num : Z) (openflow : bool) : st (list rule) :=
  sfold (condense_rule openflow second second_num) first [].

(** sorted(..., key=lambda x: -x.priority), stable *)
Fixpoint insert_prio (r : rule) (l : list rule) : list rule :=
  match l with
  | [] => [r]
  | x :: t => if priority (rcore x) <=? priority (rcore r) then r :: l else x :: insert_prio r t
  end.
Definition sort_prio (l : list rule) : list rule := fold_right insert_prio [] l.
Definition in_table (t : Z) (r : rule) : bool := table (rcore r) =? t.

(** ruleset.py:124-157 to_single_table_scaled *)
Definition set_path (r : rule) : rule := match path r with [] => mkRule (rcore r) [rcore r] | _ => r end.
(** Rule(priority=0, table=table) *)
Definition default_core (t : Z) : core := mkCore 0 None match_new inst_empty t.
Definition fill_default (rs : list rule) (t : Z) : list rule :=
  if existsb (fun r => (priority (rcore r) =? 0) && in_table t r) rs then rs
  else rs ++ [mkRule (default_core t) [default_core t]].
Definition next_table (openflow : bool) (rs : list rule) (condensed : list rule) (t : Z) : st (list rule) :=
  single_table_condense condensed (sort_prio (filter (in_table t) rs)) t openflow.
Definition to_single_table_scaled (rs : list rule) (openflow : bool) : st (list rule) :=
  let tables := tables_of rs in
  if negb (existsb (Z.eqb 0) tables) then slift (Err AssertionError) else
  let rs := fold_left fill_default tables (map set_path rs) in
  match tables with
  | [] => slift (Err IndexError)
  | t0 :: rest => sfold (next_table openflow rs) rest (sort_prio (filter (in_table t0) rs))
  end.

(** ruleset.py:160-172 to_single_table *)
Definition to_single_table (rs : list rule) (openflow : bool) : st (list rule) :=
  sdo rs <- slift (scale_ruleset rs);
  to_single_table_scaled rs openflow.
