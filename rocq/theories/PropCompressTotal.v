(** Theorems for C90: when the compression of a ruleset succeeds. *)
From Coq Require Import Lia Permutation Sorted.
From Coq Require Import ZifyBool ZifyNat.
From Verif Require Import SpecBdd MatchProofs MergeProofs ActionProofs SingleTableProofs NormaliseProofs PropNormalise PropMerge PropDeps PropDepsMulti PropDepsInd PropDepsPrefix
  DepsProofs DepsTable TreeProofs GroupProofs SelectProofs SelectTotal SimilarProofs Compress PropCompress SpecCompressTool.
Local Open Scope string_scope.
Local Open Scope list_scope.
Local Open Scope Z_scope.
Local Opaque NB WC_FULLWC layout oxm_fields registry_init.

(** ** C90 *)
(** If the dependencies lead to later tables or lower priorities and those of each rule form a chain,
    compress_ruleset with these dependencies returns, and its result is the same whatever the order
    in which sets are iterated. *)
Theorem C90_chained : forall r rules deps, rules <> [] -> (forall R, In R rules -> rule_ok r R) -> (forall R S, In R rules -> In S rules -> ~ mixed R S) ->
  forward rules deps -> chained deps -> exists res d, forall ord, compress_deps ord rules deps = Ok (res, d).
Proof.
  intros r rules deps Hne Hr Hm Hf Hc. assert (Hd := forward_within rules deps Hf).
  destruct (create_cases r rules deps Hr Hd) as [(d0 & m0 & E0 & P0 & St0 & C0)|(_ & R & S0 & HR & HS & M)]; [|now elim (Hm R S0 HR HS)].
  destruct (select_total rules (node_to_tree deps) (seq 0 (List.length rules)) d0 m0) as (d & m & E).
  - intros x y Hx Hy. eapply deps_closed; eauto.
  - exact P0.
  - exact St0.
  - intros a b. now rewrite tree_parents_in, tree_children_in.
  - intros x y Hx Hy Exy. assert (T : together d0 x y) by (apply (together_rep rules d0 m0 x y P0); auto). destruct (proj1 C0 x y T) as ((R & S0 & HR & HS & ((T1 & T2 & _) & _)) & _).
    unfold skey. now rewrite HR, HS, T1, T2.
  - intros _ a b H. apply tree_children_in in H. destruct (Hf a b H) as (R & S0 & HR & HS & L). unfold skey_le, skey. rewrite HR, HS. cbn [fst snd]. clear - L. lia.
  - intros x y z Hy Hz. rewrite tree_children_in in *. rewrite !tree_children_in. now apply (Hc x).
  - intros ->. destruct P0 as (_ & P & _). cbn in P. destruct rules as [|R rules]; [congruence|]. apply Permutation_nil in P. discriminate P.
  - exists (sort_ids rules (map fst d)), d. intros ord. unfold compress_deps. rewrite E0. cbn [rbind]. destruct (E ord) as (res & ->). reflexivity.
Qed.

Lemma nested_falls rules deps : nested rules -> (forall i j, In (i, j) deps -> exists p, falls rules i j p) -> chained deps.
Proof.
  intros Hn H i j k Hj Hk. left. destruct (H _ _ Hj) as (p & R & S0 & A1 & A2 & A3 & A4 & A5 & A6 & A7). destruct (H _ _ Hk) as (q & R' & T & B1 & B2 & B3 & B4 & B5 & B6 & B7).
  assert (R' = R) by congruence. subst R'.
  destruct (Hn i j p q R) as (R1 & S1 & X1 & X2 & X3 & X4 & X5 & X6); [exists R, S0; auto 7|exact A1|exact B5|]. assert (S1 = S0) by congruence. assert (R1 = R) by congruence. subst S1 R1.
  destruct (Hn i k q p R) as (R2 & T1 & Y1 & Y2 & Y3 & Y4 & Y5 & Y6); [exists R, T; auto 7|exact A1|exact A5|]. assert (T1 = T) by congruence. assert (R2 = R) by congruence. subst T1 R2.
  specialize (A7 k T B2 Y3 Y4 Y6). specialize (B7 j S0 A2 X3 X4 X6). lia.
Qed.
Lemma nested_covers rules deps : nested rules -> separated rules -> (forall i j, In (i, j) deps <-> exists p, covers rules i j p) -> chained deps.
Proof.
  intros Hn Hs H i j k Hj Hk. apply H in Hj as (p & A). apply H in Hk as (q & B). assert (A0 := A). assert (B0 := B).
  destruct A0 as (R & S0 & A1 & A2 & A3 & A4 & A5 & A6). destruct B0 as (R' & T & B1 & B2 & B3 & B4 & B5 & B6). assert (R' = R) by congruence. subst R'.
  destruct (Hn i k q p R B A1 A5) as (R2 & T1 & Y1 & Y2 & Y3 & Y4 & Y5 & Y6). assert (T1 = T) by congruence. assert (R2 = R) by congruence. subst T1 R2.
  destruct (Z.lt_trichotomy (priority (rcore S0)) (priority (rcore T))) as [L|[L|L]].
  - right. right. apply H. exists p, T, S0. repeat (split; [assumption || congruence|]). assumption.
  - left. apply (Hs j k S0 T p); auto; congruence.
  - right. left. apply H. exists p, S0, T. repeat (split; [assumption || congruence|]). assumption.
Qed.
Lemma no_chain rules i j p : (forall R, In R rules -> goto_table (inst (rcore R)) = None) -> ~ goto_chain rules i j p.
Proof. intros H (R & t & q & A1 & _ & A3 & _). rewrite (H R (nth_error_In _ _ A1)) in A3. discriminate A3. Qed.

(** Rules whose matches are nested, without gotos: the compression by direct dependencies (those of
    C44 and C67) returns ... *)
Theorem C90_nested_direct : forall r rules deps, rules <> [] -> (forall R, In R rules -> rule_ok r R) -> (forall R S, In R rules -> In S rules -> ~ mixed R S) ->
  nested rules -> (forall i j, In (i, j) deps -> exists p, falls rules i j p) -> exists res d, forall ord, compress_deps ord rules deps = Ok (res, d).
Proof.
  intros r rules deps Hne Hr Hm Hn H. apply (C90_chained r rules deps Hne Hr Hm); [|eapply nested_falls; eauto].
  intros a b Hab. destruct (H a b Hab) as (p & R & S0 & A1 & A2 & A3 & A4 & _). exists R, S0. split; [exact A1|]. split; [exact A2|]. right. split; [congruence|exact A4].
Qed.
(** ... and so does compress_ruleset without given dependencies, if no two rules of a table with the
    same priority overlap. Its result does not depend on the order of set iterations but for that of
    the edges. *)
Theorem C90_nested : forall edge_ord reg rules, (forall l, Permutation (edge_ord l) l) -> reg_ok reg -> ruleset_ok reg rules ->
  (forall R, In R rules -> rule_ok reg R /\ 0 <= table (rcore R) /\ plain_acts (orig_order (apply_actions (inst (rcore R)))) /\ goto_table (inst (rcore R)) = None) ->
  (forall R S, In R rules -> In S rules -> ~ mixed R S) -> nested rules -> separated rules ->
  exists reg' res d, forall ord, compress_ruleset ord edge_ord rules reg = (reg', Ok (res, d)).
Proof.
  intros edge_ord reg rules He Hreg Hrs Hall Hm Hn Hs. assert (Hg : forall R, In R rules -> goto_table (inst (rcore R)) = None) by (intros R HR; apply Hall, HR).
  destruct (C68_indirect_ruleset 2 1 false reg rules ltac:(lia) eq_refl ltac:(lia) Hreg Hrs) as (r1 & e & E1 & _ & Ie).
  { intros R HR. apply Hall, HR. } { intros R t HR X. rewrite (Hg R HR) in X. discriminate X. } { intros R HR _. destruct (Hall R HR) as ((_ & [Hi _] & _) & _ & Hp & _). auto. }
  assert (Ie' : forall i j, In (i, j) (edge_ord e) <-> exists p, covers rules i j p).
  { intros i j. split.
    - intros H. apply (Permutation_in _ (He e)) in H. apply Ie in H as [H|(p & H)]; [exact H|]. now elim (no_chain rules i j p Hg).
    - intros H. apply (Permutation_in _ (Permutation_sym (He e))). apply Ie. now left. }
  destruct (C90_chained reg rules (edge_ord e)) as (res & d & E).
  - apply Hrs. - intros R HR. apply Hall, HR. - exact Hm.
  - intros a b Hab. apply Ie' in Hab as (p & R & S0 & A1 & A2 & A3 & A4 & _). exists R, S0. split; [exact A1|]. split; [exact A2|]. right. split; [congruence|exact A4].
  - exact (nested_covers rules _ Hn Hs Ie').
  - exists r1, res, d. intros ord. unfold compress_ruleset, sbind. rewrite E1. unfold slift. now rewrite E.
Qed.

(** ** Examples *)
Definition ex90 : list rule := [
  mk_g 20 0 [("IN_PORT", (0, None)); ("MPLS_BOS", (0, None))] (outp 1); mk_g 20 0 [("IN_PORT", (1, None)); ("MPLS_BOS", (1, None))] (outp 2);
  mk_g 10 0 [("IN_PORT", (0, None))] (outp 3); mk_g 10 0 [("IN_PORT", (1, None))] (outp 4); mk_g 0 0 [] (outp 5)].
Lemma ex90_ok R : In R ex90 -> rule_ok registry_init R.
Proof. intros H. repeat (destruct H as [<-|H]; [apply mk_rule_ok; try discriminate; vm_compute; reflexivity|]). destruct H. Qed.
Lemma ex90_proper R : In R ex90 -> proper registry_init true (rcore R).
Proof. intros H. repeat (destruct H as [<-|H]; [apply mk_proper; vm_compute; reflexivity|]). destruct H. Qed.
Lemma ex90_ruleset : ruleset_ok registry_init ex90.
Proof. split; [discriminate|]. split; [intros R HR; apply ex90_ok, HR|]. intros R t HR E. exfalso. repeat (destruct HR as [<-|HR]; [discriminate E|]). destruct HR. Qed.
Lemma ex90_plain R S : In R ex90 -> In S ex90 -> ~ mixed R S.
Proof.
  intros HR HS (_ & f & X). apply X. assert (N : forall T, In T ex90 -> ~ has_kind T "SET_FIELD" (Some f)); [|split; intros Y; now apply N in Y].
  intros T HT (a & [D|D] & A & _); repeat (destruct HT as [<-|HT]; [vm_compute in D; repeat (destruct D as [<-|D]; [discriminate A|]); destruct D|]); destruct HT.
Qed.
Lemma port_clash R S p : In ("IN_PORT", (0, None)) (items_view (m_items (rmatch (rcore R)))) -> In ("IN_PORT", (1, None)) (items_view (m_items (rmatch (rcore S)))) ->
  rule_accepts R p -> rule_accepts S p -> False.
Proof.
  intros HR HS AR AS. assert (exists s, In s layout /\ sl_name s = "IN_PORT" /\ 0 < sl_bits s) as (s & H1 & H2 & H3).
  { assert (X : exists s, find (fun s => String.eqb (sl_name s) "IN_PORT" && (0 <? sl_bits s)) layout = Some s) by (vm_compute; eauto). destruct X as (s & X). apply find_some in X as [X1 X2]. exists s.
    apply andb_true_iff in X2 as [X2 X3]. apply String.eqb_eq in X2. apply Z.ltb_lt in X3. auto. }
  assert (A := AR _ HR s H1 H2 0 ltac:(lia) eq_refl). assert (B := AS _ HS s H1 H2 0 ltac:(lia) eq_refl). cbn [fst snd] in A, B. rewrite A in B. discriminate B.
Qed.
Ltac apart := match goal with A : rule_accepts ?R ?p, B : rule_accepts ?S ?p |- _ =>
  first [exfalso; apply (port_clash R S p); [solve [vm_compute; auto]|solve [vm_compute; auto]|exact A|exact B] | exfalso; apply (port_clash S R p); [solve [vm_compute; auto]|solve [vm_compute; auto]|exact B|exact A]] end.
Lemma ex90_nested : nested ex90.
Proof.
  intros i j p q R (R1 & S & A1 & A2 & A3 & A4 & A5 & A6) HR AR. assert (R1 = R) by congruence. subst R1. exists R, S.
  do 5 (split; [assumption|]). destruct i as [|[|[|[|[|i]]]]]; [| | | | |destruct i; discriminate HR]; (destruct j as [|[|[|[|[|j]]]]]; [| | | | |destruct j; discriminate A2]);
    injection HR as <-; injection A2 as <-; try (vm_compute in A4; discriminate A4); try apart; intros it Hit; apply AR; vm_compute in Hit |- *; tauto.
Qed.
Lemma ex90_separated : separated ex90.
Proof.
  intros i j R S p HR HS _ E AR AS. destruct i as [|[|[|[|[|i]]]]]; [| | | | |destruct i; discriminate HR]; (destruct j as [|[|[|[|[|j]]]]]; [| | | | |destruct j; discriminate HS]);
    injection HR as <-; injection HS as <-; try reflexivity; try (vm_compute in E; discriminate E); apart.
Qed.
Example C90_ex : (exists reg' res d, forall ord, compress_ruleset ord (fun l => l) ex90 registry_init = (reg', Ok (res, d))) /\
  snd (compress_ruleset (fun l => l) (fun l => l) ex90 registry_init) = Ok ([0; 2; 4]%nat, [(0, [0; 1]); (2, [2; 3]); (4, [4])]%nat).
Proof.
  split.
  - apply C90_nested; [reflexivity|exact reg_init_ok|exact ex90_ruleset| |exact ex90_plain|exact ex90_nested|exact ex90_separated].
    intros R HR. split; [now apply ex90_ok|]. split; [repeat (destruct HR as [<-|HR]; [vm_compute; discriminate|]); destruct HR|]. split; [apply ex90_proper in HR; apply HR|].
    repeat (destruct HR as [<-|HR]; [reflexivity|]). destruct HR.
  - vm_compute. reflexivity.
Qed.
(** the hypotheses of C90_chained and C90_nested_direct *)
Definition ex90_deps : list edge := [(0, 2); (1, 3); (2, 4); (3, 4)]%nat.
Lemma ex90_chained : chained ex90_deps /\ forward ex90 ex90_deps.
Proof.
  split.
  - intros i j k Hj Hk. left. assert (X : forallb (fun e => forallb (fun f => negb (Nat.eqb (fst e) (fst f)) || Nat.eqb (snd e) (snd f)) ex90_deps) ex90_deps = true) by reflexivity.
    rewrite forallb_forall in X. specialize (X _ Hj). rewrite forallb_forall in X. specialize (X _ Hk). cbn [fst snd] in X. lia.
  - intros a b H. repeat (destruct H as [[= <- <-]|H]; [eexists _, _; split; [reflexivity|]; split; [reflexivity|]; right; vm_compute; auto|]). destruct H.
Qed.
Example C90_ex_chained : exists res d, (forall ord, compress_deps ord ex90 ex90_deps = Ok (res, d)) /\ res = [0; 2; 4]%nat.
Proof.
  destruct (C90_chained registry_init ex90 ex90_deps ltac:(discriminate) ex90_ok ex90_plain (proj2 ex90_chained) (proj1 ex90_chained)) as (res & d & E). exists res, d. split; [exact E|].
  assert (X := E (fun l => l)). vm_compute in X. now injection X as <- _.
Qed.

Print Assumptions C90_chained.
Print Assumptions C90_nested_direct.
Print Assumptions C90_nested.
