(** graph_ruleset_deps on a routing table: build_graph (ofequivalence/graph_ruleset_deps.py:340-429)
    with the input format "fib" and --compress. Lines 345-358 before draw_compressed. *)
From Coq Require Import QArith.
From Verif Require Import SpecBdd Deps Normalise.
From Verif Require Export LayoutCompress.
Local Open Scope list_scope.
Local Open Scope nat_scope.

(** 345-353: the dependencies; with "direct" the keys of a dict, otherwise a set, iterated in any
    order [edge_ord]. The constants of the BDDs are those of wc_to_BDD(.., "1", "1"). *)
Definition graph_prefix_deps (edge_ord : list edge -> list edge) (direct : bool) (rules : list rule) : result (list edge) :=
  if direct then do d <- build_prefix_table_deps 2 1 rules; Ok (map fst d)
  else do s <- ind_prefix_table_deps rules; Ok (edge_ord s).
(** 356-358: --no-table-miss; the rules that are left and where they are among them *)
Definition no_miss (R : rule) : bool := negb (priority (rcore R) =? 0)%Z.
Definition new_position (rules : list rule) (i : nat) : nat := List.length (filter no_miss (firstn i rules)).
Definition without_miss (rules : list rule) (deps : list edge) : list rule * list edge :=
  (filter no_miss rules, map (fun e => (new_position rules (fst e), new_position rules (snd e))) (drop_miss rules deps)).
(** 350-429 *)
Definition graph_fib (ord : list nat -> list nat) (edge_ord : list edge -> list edge) (direct no_table_miss only_group : bool) (group : option grouping) (loaded : list rule) : result drawn :=
  let rules := sort_ruleset loaded in
  do deps <- graph_prefix_deps edge_ord direct rules;
  let (rules, deps) := if no_table_miss then without_miss rules deps else (rules, deps) in
  draw_compressed ord rules only_group group deps.
