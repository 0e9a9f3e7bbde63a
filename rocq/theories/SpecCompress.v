(** Specification of ruleset compression: similar rules, groups, representatives. Mentions the
    data of the rules and the meaning of a match only. *)
From Coq Require Export Relations.Relation_Operators.
From Coq Require Export Permutation.
From Verif Require Export SpecDeps.
Local Open Scope string_scope.
Local Open Scope list_scope.
Local Open Scope Z_scope.

(** ** Graphs *)
Notation reaches := (clos_trans nat).
Definition acyclic (E : nat -> nat -> Prop) : Prop := forall x, ~ reaches E x x.
(** no edge has a detour *)
Definition reduced (E : nat -> nat -> Prop) : Prop := forall a b, E a b -> ~ exists c, reaches E a c /\ reaches E c b.

(** ** Similar rules *)
Definition flip (p : packet) (i : Z) : packet := fun k => if k =? i then negb (p k) else p k.
(** the match of [R] depends on bit [i] of the packet *)
Definition tests (R : rule) (i : Z) : Prop := 0 <= i < NB /\ exists p, rule_accepts R p /\ ~ rule_accepts R (flip p i).
Definition does (R : rule) (a : action) : Prop :=
  In a (orig_order (write_actions (inst (rcore R)))) \/ In a (orig_order (apply_actions (inst (rcore R)))).
(** the kind of an action: its name, and the field if it sets one *)
Definition has_kind (R : rule) (name : string) (field : option string) : Prop :=
  exists a, does R a /\ fst a = name /\
  if String.eqb name "SET_FIELD" then exists f v, field = Some f /\ snd a = VSet f v else field = None.
(** same table, priority, tested bits and goto *)
Definition alike (R S : rule) : Prop :=
  table (rcore R) = table (rcore S) /\ priority (rcore R) = priority (rcore S) /\ (forall i, tests R i <-> tests S i) /\
  goto_table (inst (rcore R)) = goto_table (inst (rcore S)).
Definition similar (R S : rule) : Prop := alike R S /\ forall n f, has_kind R n f <-> has_kind S n f.
(** alike, but one of them sets a field that the other does not set *)
Definition mixed (R S : rule) : Prop := alike R S /\ exists f, ~ (has_kind R "SET_FIELD" (Some f) <-> has_kind S "SET_FIELD" (Some f)).
(** OpenFlow 1.3 actions other than SET_FIELD *)
Definition plain_names : list string :=
  ["COPY_TTL_IN"; "POP_VLAN"; "POP_PBB"; "POP_MPLS"; "PUSH_MPLS"; "PUSH_PBB"; "PUSH_VLAN"; "COPY_TTL_OUT"; "DEC_MPLS_TTL"; "DEC_NW_TTL";
   "SET_MPLS_TTL"; "SET_NW_TTL"; "SET_QUEUE"; "GROUP"; "OUTPUT"].
Definition of_action (a : action) : Prop := In (fst a) plain_names \/ (fst a = "SET_FIELD" /\ exists f v, snd a = VSet f v).

(** ** Groups *)
(** the groups [d] partition the first [n] positions; each is headed by its representative *)
Definition grouping (n : nat) (d : list (nat * list nat)) : Prop :=
  Permutation (List.concat (map snd d)) (seq 0 n) /\ NoDup (map fst d) /\ forall g l, In (g, l) d -> exists r, l = g :: r.
Definition together (d : list (nat * list nat)) (i j : nat) : Prop := exists g l, In (g, l) d /\ In i l /\ In j l.
(** [Q] relates similar rules only, and the rules they depend on are related too *)
Definition congruent (rules : list rule) (deps : list (nat * nat)) (Q : nat -> nat -> Prop) : Prop := forall i j, Q i j ->
  (exists R S, nth_error rules i = Some R /\ nth_error rules j = Some S /\ similar R S) /\
  (forall k, In (k, i) deps -> exists k', In (k', j) deps /\ Q k k') /\ (forall k, In (k, j) deps -> exists k', In (k', i) deps /\ Q k' k) /\
  (forall k, In (i, k) deps -> exists k', In (j, k') deps /\ Q k k') /\ (forall k, In (j, k) deps -> exists k', In (i, k') deps /\ Q k' k).
(** [d] has the largest groups possible *)
Definition coarsest (rules : list rule) (deps : list (nat * nat)) (d : list (nat * list nat)) : Prop :=
  congruent rules deps (together d) /\ forall Q, congruent rules deps Q -> forall i j, Q i j -> together d i j.
(** dependencies lead to a later table, or to a lower priority *)
Definition forward (rules : list rule) (deps : list (nat * nat)) : Prop := forall a b, In (a, b) deps ->
  exists R S, nth_error rules a = Some R /\ nth_error rules b = Some S /\
  (table (rcore R) < table (rcore S) \/ (table (rcore R) = table (rcore S) /\ priority (rcore S) < priority (rcore R))).
