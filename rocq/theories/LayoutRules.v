(** The drawing of the dependencies of a ruleset. Models the parts of build_graph
    (ofequivalence/graph_ruleset_deps.py:338-429) that feed directed_layout; labels and colours are left out,
    the compressed groups are in LayoutCompress.v. A rule is its position in the ruleset. *)
From Coq Require Import QArith.
From Verif Require Import SpecBdd Deps Normalise.
From Verif Require Export Layout.
Local Open Scope list_scope.
Local Open Scope nat_scope.

(** ruleset.py:34-39 *)
Definition rule_key (rules : list rule) (i : nat) : Z * Z :=
  match nth_error rules i with Some R => sort_key R | None => (0, 0)%Z end.
(** 356-358: --no-table-miss *)
Definition drop_miss (rules : list rule) (e : list (nat * nat)) : list (nat * nat) :=
  let hit i := match nth_error rules i with Some R => negb (priority (rcore R) =? 0)%Z | None => true end in
  filter (fun d => hit (fst d) && hit (snd d)) e.
Fixpoint first_only (l : list nat) : list nat :=
  match l with [] => [] | x :: r => x :: filter (fun y => negb (Nat.eqb x y)) (first_only r) end.
(** 368-372: the edges within a table first; NetworkX adds the end points as nodes *)
Definition graph_nodes (rules : list rule) (e : list (nat * nat)) : list nat :=
  let same d := (fst (rule_key rules (fst d)) =? fst (rule_key rules (snd d)))%Z in
  first_only (flat_map (fun d => [fst d; snd d]) (filter same e ++ filter (fun d => negb (same d)) e)).
(** 350, 376-399: the rules of the graph, sorted; 409-416: their groups *)
Definition graph_groups (rules : list rule) (nodes : list nat) (g : grouping) : nat -> option Z :=
  let ordered := filter (fun i => nmem i nodes) (sort_nodes (rule_key rules) (seq 0 (List.length rules))) in
  match g with
  | GroupNone => fun _ => None
  | GroupTable => group_attr (number_groups (fun i => (fst (rule_key rules i), 0%Z)) 1 None ordered)
  | GroupPriority => group_attr (number_groups (rule_key rules) 1 None ordered)
  end.
(** 418-419 *)
Definition draw (rules : list rule) (no_table_miss : bool) (g : grouping) (deps : list (nat * nat)) : result (list (nat * (Q * Q))) :=
  let e := if no_table_miss then drop_miss rules deps else deps in
  let nodes := graph_nodes rules e in
  directed_layout e (rule_key rules) (graph_groups rules nodes g) 1 true true nodes.
