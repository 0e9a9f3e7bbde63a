(** What a BDD means: specification only. *)
From Verif Require Export Bdd Spec.

(** The action a BDD gives to a packet (None: undefined). Node number [n] tests header
    position NB-1-n. *)
Fixpoint denote {A} (b : bdd A) (p : packet) : option A :=
  match b with
  | BNone => None
  | BTerm a => Some a
  | BNode n z o => if p (NB - 1 - n) then denote o p else denote z p
  end.

(** Ordered (numbers grow from [lo] downwards to NB-1) and reduced (no redundant node). *)
Fixpoint bdd_wf {A} (lo : Z) (b : bdd A) : Prop :=
  match b with
  | BNone | BTerm _ => True
  | BNode n z o => lo <= n < NB /\ z <> o /\ bdd_wf (n + 1) z /\ bdd_wf (n + 1) o
  end.

(** The same for CUDD's ADDs. *)
Fixpoint adenote (b : add) (p : packet) : Z :=
  match b with
  | AConst v => v
  | ANode n t e => if p (NB - 1 - n) then adenote t p else adenote e p
  end.
Fixpoint add_wf (lo : Z) (b : add) : Prop :=
  match b with
  | AConst _ => True
  | ANode n t e => lo <= n < NB /\ t <> e /\ add_wf (n + 1) t /\ add_wf (n + 1) e
  end.
