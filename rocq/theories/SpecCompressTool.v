(** Specification side of the command compress_ruleset: what the rules it keeps stand for. *)
From Verif Require Export SpecCompress.
Local Open Scope list_scope.
Local Open Scope Z_scope.

(** Each rule depends on the other for some packet: that falls through to it or enters its table
    there, or that both rules match or a chain of gotos leads to it. *)
Definition direct_dep (rules : list rule) (i j : nat) : Prop := exists p, falls rules i j p \/ enters rules i j p.
Definition indirect_dep (rules : list rule) (i j : nat) : Prop := exists p, covers rules i j p \/ goto_chain rules i j p.
(** [Q] relates similar rules only, and the rules they depend on, or that depend on them, are
    related too. *)
Definition interchangeable (rules : list rule) (dep Q : nat -> nat -> Prop) : Prop := forall i j, Q i j ->
  (exists R S, nth_error rules i = Some R /\ nth_error rules j = Some S /\ similar R S) /\
  (forall k, dep k i -> exists k', dep k' j /\ Q k k') /\ (forall k, dep k j -> exists k', dep k' i /\ Q k' k) /\
  (forall k, dep i k -> exists k', dep j k' /\ Q k k') /\ (forall k, dep j k -> exists k', dep i k' /\ Q k' k).
(** The rules at the positions [kept] stand for all: every rule is in the group of exactly one of
    them, the rules of a group are interchangeable, and two kept rules depend on each other exactly as
    their groups do. The groups are as large as can be: whatever rules are interchangeable, only one
    of them is kept. *)
Definition stand_for (rules : list rule) (dep : nat -> nat -> Prop) (kept : list nat) : Prop :=
  exists d, grouping (List.length rules) d /\ Permutation kept (map fst d) /\
    (forall i, (i < List.length rules)%nat -> exists! g, In g kept /\ together d g i) /\
    interchangeable rules dep (together d) /\ (forall Q, interchangeable rules dep Q -> forall i j, Q i j -> together d i j) /\
    (forall a b, In a kept -> In b kept -> (dep a b <-> exists x y, together d a x /\ together d b y /\ dep x y)).

(** ** Chains *)
(** Of any two rules that a rule depends on one depends on the other. *)
Definition chained (deps : list (nat * nat)) : Prop := forall i j k, In (i, j) deps -> In (i, k) deps -> j = k \/ In (j, k) deps \/ In (k, j) deps.
(** A rule that shares a packet with a rule of lower priority in its table shares all its packets. *)
Definition nested (rules : list rule) : Prop := forall i j p q R, covers rules i j p -> nth_error rules i = Some R -> rule_accepts R q -> covers rules i j q.
