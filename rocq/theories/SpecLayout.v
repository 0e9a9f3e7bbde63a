(** What a drawing of a dependency graph is asked to be. Independent of Layout.v. *)
From Coq Require Import QArith.
From Coq Require Import List ZArith.
Import ListNotations.

(** [a] has the smaller sort key *)
Definition sooner (key : nat -> Z * Z) (a b : nat) : Prop :=
  (fst (key a) < fst (key b) \/ (fst (key a) = fst (key b) /\ snd (key a) < snd (key b)))%Z.
(** an edge leads to a later group, or to a node of the same group with a greater key *)
Definition ordered_edge (key : nat -> Z * Z) (gid : nat -> option Z) (a b : nat) : Prop :=
  match gid a, gid b with
  | Some g, Some h => (g < h)%Z \/ (g = h /\ sooner key a b)
  | _, _ => sooner key a b
  end.
(** the input graph: distinct nodes, all of them with a group or none, edges between nodes *)
Definition drawable (edges : list (nat * nat)) (key : nat -> Z * Z) (gid : nat -> option Z) (nodes : list nat) : Prop :=
  nodes <> [] /\ NoDup nodes /\ ((forall x, In x nodes -> gid x <> None) \/ (forall x, In x nodes -> gid x = None)) /\
  forall a b, In (a, b) edges -> In a nodes /\ In b nodes /\ ordered_edge key gid a b.
(** each node has one position, inside the square, no two share one, and every edge leads down *)
Definition drawing (edges : list (nat * nat)) (scale : Q) (nodes : list nat) (pos : list (nat * (Q * Q))) : Prop :=
  NoDup (map fst pos) /\ (forall x, In x (map fst pos) <-> In x nodes) /\
  (forall x px py, In (x, (px, py)) pos -> 0 < px /\ px < scale /\ 0 < py /\ py < scale)%Q /\
  (forall a ax ay b bx by_, In (a, (ax, ay)) pos -> In (b, (bx, by_)) pos -> a <> b -> ~ (ax == bx /\ ay == by_)%Q) /\
  (forall a ax ay b bx by_, In (a, b) edges -> In (a, (ax, ay)) pos -> In (b, (bx, by_)) pos -> by_ < ay)%Q.
