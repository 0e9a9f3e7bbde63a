(** Specification side of the report of differences of the headerspace normaliser. *)
From Verif Require Export HspaceDiff SpecNormalise.
Local Open Scope list_scope.
Local Open Scope Z_scope.

(** The packets of a cell: those of the include that no exclude takes. *)
Definition in_cell (k : shim) (p : packet) : Prop :=
  szero k = false /\ exists w, sinc k = Some w /\ accepts w p /\ forall x, In x (sexc k) -> ~ accepts x p.
(** Two tables give the packet the same actions (or both none). *)
Definition alike (A B : list rule) (p : packet) : Prop := forall o, prescribes A p o <-> prescribes B p o.
(** Keys of a dict are the same if they are one object or compare equal. *)
Definition same_path (a b : list core) : Prop := a = b \/ path_eqb a b = true.
(** The dict relates the original path [P] to the new path [Q]. *)
Definition related (res : list (list core * list (list core))) (P Q : list core) : Prop :=
  exists P' Qs, In (P', Qs) res /\ same_path P' P /\ In Q Qs.
