(** Specification side of the action properties: trace equivalence. *)
From Coq Require Export List Permutation Sorted Bool ZArith Lia.
Export ListNotations.
Local Open Scope list_scope.

(** Two sequences are trace equivalent when one is obtained from the other by swapping adjacent
    independent elements any number of times. *)
Inductive trace_eq {A} (ind : A -> A -> Prop) : list A -> list A -> Prop :=
| te_refl l : trace_eq ind l l
| te_swap l a b r : ind a b -> trace_eq ind (l ++ a :: b :: r) (l ++ b :: a :: r)
| te_trans l m r : trace_eq ind l m -> trace_eq ind m r -> trace_eq ind l r.
