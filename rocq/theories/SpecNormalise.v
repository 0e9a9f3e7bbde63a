(** Specification side of normalisation: which rule of an ordered single table a packet hits. *)
From Verif Require Export Rule SpecBdd.

(** The packet satisfies the rule's match. *)
Definition rule_accepts (r : rule) (p : packet) : Prop := match_accepts (items_view (m_items (rmatch (rcore r)))) p.

(** The first rule of the list that accepts the packet, if any. *)
Inductive first_match : list rule -> packet -> option rule -> Prop :=
| fm_none p : first_match [] p None
| fm_hit r rs p : rule_accepts r p -> first_match (r :: rs) p (Some r)
| fm_miss r rs p o : ~ rule_accepts r p -> first_match rs p o -> first_match (r :: rs) p o.

(** What the table prescribes for the packet: the per-output actions of that rule, or nothing. *)
Definition prescribes (rules : list rule) (p : packet) (o : option po_value) : Prop :=
  (first_match rules p None /\ o = None) \/
  (exists r d, first_match rules p (Some r) /\ rule_actions r = Ok d /\ o = Some d).
