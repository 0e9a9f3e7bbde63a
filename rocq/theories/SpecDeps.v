(** Specification of rule dependencies: which rule takes over the packets of another. Mentions
    the data of the rules and the meaning of a match only. *)
From Verif Require Export SpecNormalise SpecPipeline.
Local Open Scope string_scope.
Local Open Scope list_scope.
Local Open Scope Z_scope.

(** [falls rules i j p]: the packet [p] is matched by the rule at position [i], and of the rules
    of its table with strictly lower priority the one at position [j] is the first to match [p]
    (highest priority, list order on ties). *)
Definition falls (rules : list rule) (i j : nat) (p : packet) : Prop :=
  exists R S, nth_error rules i = Some R /\ nth_error rules j = Some S /\
  table (rcore S) = table (rcore R) /\ priority (rcore S) < priority (rcore R) /\ rule_accepts R p /\ rule_accepts S p /\
  forall k T, nth_error rules k = Some T -> table (rcore T) = table (rcore R) -> priority (rcore T) < priority (rcore R) ->
    rule_accepts T p -> priority (rcore T) < priority (rcore S) \/ (priority (rcore T) = priority (rcore S) /\ (j <= k)%nat).

(** The same among the rules at the positions [idx] only. *)
Definition falls_among (rules : list rule) (idx : list nat) (i j : nat) (p : packet) : Prop :=
  In i idx /\ In j idx /\ exists R S, nth_error rules i = Some R /\ nth_error rules j = Some S /\
  table (rcore S) = table (rcore R) /\ priority (rcore S) < priority (rcore R) /\ rule_accepts R p /\ rule_accepts S p /\
  forall k T, In k idx -> nth_error rules k = Some T -> table (rcore T) = table (rcore R) -> priority (rcore T) < priority (rcore R) ->
    rule_accepts T p -> priority (rcore T) < priority (rcore S) \/ (priority (rcore T) = priority (rcore S) /\ (j <= k)%nat).

(** [covers rules i j p]: both rules are in the same table and match [p], [i] with the higher
    priority. *)
Definition covers (rules : list rule) (i j : nat) (p : packet) : Prop :=
  exists R S, nth_error rules i = Some R /\ nth_error rules j = Some S /\
  table (rcore S) = table (rcore R) /\ priority (rcore S) < priority (rcore R) /\ rule_accepts R p /\ rule_accepts S p.

(** [enters rules i j p]: a packet matched by the rule at position [i] enters the rule's goto table
    with header [p] and hits the rule at position [j] there. *)
Definition enters (rules : list rule) (i j : nat) (p : packet) : Prop :=
  exists R S t q, nth_error rules i = Some R /\ nth_error rules j = Some S /\
  goto_table (inst (rcore R)) = Some t /\ table (rcore S) = t /\
  rule_accepts R q /\ (forall b, p b = inst_header (inst (rcore R)) q b) /\ rule_accepts S p /\
  forall k T, nth_error rules k = Some T -> table (rcore T) = t -> rule_accepts T p ->
    priority (rcore T) < priority (rcore S) \/ (priority (rcore T) = priority (rcore S) /\ (j <= k)%nat).

(** [arrives rules t p j q]: a packet that enters table [t] with header [p] can be at the rule at
    position [j] with header [q], if each table it passes may pick any rule that matches
    (priorities are ignored). *)
Inductive arrives (rules : list rule) : Z -> packet -> nat -> packet -> Prop :=
| arr_here t p j S : nth_error rules j = Some S -> table (rcore S) = t -> rule_accepts S p -> arrives rules t p j p
| arr_goto t p k S t' j q : nth_error rules k = Some S -> table (rcore S) = t -> rule_accepts S p -> goto_table (inst (rcore S)) = Some t' ->
    arrives rules t' (inst_header (inst (rcore S)) p) j q -> arrives rules t p j q.
(** a packet [p] of the rule at [i] arrives at the rule at [j] by the gotos *)
Definition goto_chain (rules : list rule) (i j : nat) (p : packet) : Prop :=
  exists R t q, nth_error rules i = Some R /\ rule_accepts R p /\ goto_table (inst (rcore R)) = Some t /\
  arrives rules t (inst_header (inst (rcore R)) p) j q.

(** All rules are in one table. *)
Definition one_table (rules : list rule) : Prop := forall R S, In R rules -> In S rules -> table (rcore R) = table (rcore S).
(** A rule that matches every packet. *)
Definition match_all (R : rule) : Prop := forall p, rule_accepts R p.
(** Rules of one priority do not overlap. *)
Definition separated (rules : list rule) : Prop := forall i j R S p, nth_error rules i = Some R -> nth_error rules j = Some S ->
  table (rcore R) = table (rcore S) -> priority (rcore R) = priority (rcore S) -> rule_accepts R p -> rule_accepts S p -> i = j.

(** IPv4 prefixes: the first [len] bits of an address agree with those of the network. The last
    bits of the network are zero, and the rule's priority is the length of its prefix. *)
Definition ipv4_prefix (R : rule) (net len : Z) : Prop :=
  0 <= len <= 32 /\ priority (rcore R) = len /\ 0 <= net < 2 ^ 32 /\ net mod 2 ^ (32 - len) = 0 /\
  exists k, items_view (m_items (rmatch (rcore R))) = [("IPV4_DST", (net, k))] /\
  ((len = 32 /\ k = None) \/ k = Some (2 ^ 32 - 2 ^ (32 - len))).
(** The addresses of the second prefix are among those of the first, which is shorter. *)
Definition encloses (net len net' len' : Z) : Prop := len < len' /\ net' / 2 ^ (32 - len) = net / 2 ^ (32 - len).
(** The rules are distinct prefixes [P], among them the default route. *)
Definition prefix_table (rules : list rule) (P : list (Z * Z)) : Prop :=
  Forall2 (fun R q => ipv4_prefix R (fst q) (snd q)) rules P /\ NoDup P /\ In (0, 0) P.
(** Prefix [j] encloses prefix [i]; it is the longest that does. *)
Definition lies_in (P : list (Z * Z)) (i j : nat) : Prop :=
  exists n l n' l', nth_error P i = Some (n, l) /\ nth_error P j = Some (n', l') /\ encloses n' l' n l.
Definition longest (P : list (Z * Z)) (i j : nat) : Prop :=
  lies_in P i j /\ forall k m a b, lies_in P i k -> nth_error P k = Some m -> nth_error P j = Some (a, b) -> snd m <= b.
