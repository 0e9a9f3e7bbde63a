(** Rules whose text can be read back. *)
From Verif Require Import Base Text MatchText SpecMatchText PathText RuleText.

(** A name in quotes: no quote, backslash or newline. *)
Definition plain_name (n : text) : Prop :=
  ~ In "'"%char n /\ ~ In "\"%char n /\ ~ In newline n.
Definition plain_action (a : action) : Prop :=
  plain_name (fst a) /\ match snd a with AField n _ => plain_name n | _ => True end.
Definition plain_rule (fmt : text -> option kind) (r : trule) : Prop :=
  readable fmt (t_match r) /\ Forall plain_action (i_apply (t_instr r)) /\
  Forall plain_action (i_write (t_instr r)).
