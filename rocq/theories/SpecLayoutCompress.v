(** What a drawing of a compressed ruleset is asked to be. Independent of LayoutCompress.v. *)
From Coq Require Import List.
From Verif Require Export SpecCompress.

(** no dependency begins or ends at the rule *)
Definition isolated (deps : list (nat * nat)) (i : nat) : Prop := forall a b, In (a, b) deps -> a <> i /\ b <> i.
(** two similar rules without dependencies *)
Definition twins (rules : list rule) (deps : list (nat * nat)) : Prop := exists i j R S, i <> j /\
  nth_error rules i = Some R /\ nth_error rules j = Some S /\ similar R S /\ isolated deps i /\ isolated deps j.
