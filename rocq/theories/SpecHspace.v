(** Specification side of the headerspace normaliser: cells of a set of wildcards.
    A cell is given by the wildcards that must accept ([I]) and those that must not ([X]). *)
From Verif Require Export Spec.
Local Open Scope list_scope.
Local Open Scope Z_scope.

Definition accepts_all (I0 : list Z) (p : packet) : Prop := forall w, In w I0 -> accepts w p.
(** A cell is visibly empty if nothing is in all of [I], or one of [X] alone takes all of it. *)
Definition dead (I0 X : list Z) : Prop :=
  ~ (exists p, accepts_all I0 p) \/ exists x, In x X /\ forall p, accepts_all I0 p -> accepts x p.

(** A choice of sign for every wildcard. *)
Definition pos (s : Z -> bool) (F : list Z) : list Z := filter s F.
Definition neg (s : Z -> bool) (F : list Z) : list Z := filter (fun x => negb (s x)) F.

(** The value of the first entry of an ordered table with a positive sign. *)
Fixpoint first_of {V} (s : Z -> bool) (L : list (Z * V)) : option V :=
  match L with [] => None | (w, v) :: t => if s w then Some v else first_of s t end.
