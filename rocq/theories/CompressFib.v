(** Proofs about the command compress_ruleset on a routing table. *)
From Coq Require Import Lia Permutation Sorted.
From Coq Require Import ZifyBool ZifyNat.
From Verif Require Import SpecBdd FormatProofs MortonProofs WildcardProofs MatchProofs MergeProofs ActionProofs SingleTableProofs NormaliseProofs PropNormalise PropDepsMulti PropDepsInd PropDepsPrefix
  DepsProofs DepsTable DepsAny DepsMultiProofs DepsIndProofs DepsPrefixProofs SimilarProofs PropCompress Fib SpecMisc MiscProofs ToolProofs CompressTool SpecCompressTool CompressToolProofs PropCompressTotal.
Local Open Scope string_scope.
Local Open Scope list_scope.
Local Open Scope Z_scope.
Local Opaque NB WC_FULLWC layout oxm_fields registry_init.

(** ** The chain of enclosing prefixes *)
Lemma quotient x a b : 0 <= a <= b -> b <= 32 -> x / 2 ^ (32 - a) = x / 2 ^ (32 - b) / 2 ^ (b - a).
Proof. intros A B. rewrite Z.div_div; [|lia|apply Z.pow_pos_nonneg; lia]. rewrite <- Z.pow_add_r by lia. f_equal. f_equal. lia. Qed.
Lemma canonical n l : 0 <= l <= 32 -> n mod 2 ^ (32 - l) = 0 -> n = 2 ^ (32 - l) * (n / 2 ^ (32 - l)).
Proof. intros L M. assert (X := Z.div_mod n (2 ^ (32 - l))). rewrite M in X. assert (0 < 2 ^ (32 - l)) by (apply Z.pow_pos_nonneg; lia). lia. Qed.
Lemma prefix_at rules P : Forall2 (fun R q => ipv4_prefix R (fst q) (snd q)) rules P -> forall k q, nth_error P k = Some q -> exists R, nth_error rules k = Some R /\ ipv4_prefix R (fst q) (snd q).
Proof. intros F. induction F as [|R q0 rs P0 H F IH]; intros [|k] q E; try discriminate; cbn [nth_error] in *; [injection E as <-; eauto|apply IH, E]. Qed.
Lemma lies_cases rules P i j k : prefix_table rules P -> lies_in P i j -> lies_in P i k -> j = k \/ lies_in P j k \/ lies_in P k j.
Proof.
  intros (F & ND & _) (n & l & n1 & l1 & A1 & A2 & L1 & E1) (n' & l' & n2 & l2 & B1 & B2 & L2 & E2). rewrite A1 in B1. injection B1 as <- <-.
  destruct (prefix_at rules P F i _ A1) as (_ & _ & R1 & _ & G1 & G2 & _). destruct (prefix_at rules P F j _ A2) as (_ & _ & R2 & _ & G3 & G4 & _). destruct (prefix_at rules P F k _ B2) as (_ & _ & R3 & _ & G5 & G6 & _).
  cbn [fst snd] in *. destruct (Z.lt_trichotomy l1 l2) as [L|[L|L]].
  - right. right. exists n2, l2, n1, l1. do 2 (split; [assumption|]). split; [exact L|]. rewrite <- E1, !(quotient _ l1 l2) by lia. now rewrite E2.
  - left. subst l2. assert (n1 = n2) by (rewrite (canonical n1 l1), (canonical n2 l1) by auto; congruence). subst n2.
    apply (NoDup_nth_error P); [exact ND| |congruence]. apply nth_error_Some. congruence.
  - right. left. exists n1, l1, n2, l2. do 2 (split; [assumption|]). split; [exact L|]. rewrite <- E2, !(quotient _ l2 l1) by lia. now rewrite E1.
Qed.
Lemma lies_chained rules P deps : prefix_table rules P -> (forall i j, In (i, j) deps <-> lies_in P i j) -> chained deps.
Proof. intros HP H i j k Hj Hk. rewrite !H in *. now apply (lies_cases rules P i). Qed.
Lemma longest_chained rules P deps : prefix_table rules P -> (forall i j, In (i, j) deps <-> longest P i j) -> chained deps.
Proof.
  intros HP H i j k Hj Hk. left. apply H in Hj as [Hj Mj]. apply H in Hk as [Hk Mk].
  destruct (lies_cases rules P i j k HP Hj Hk) as [E|[(n & l & n' & l' & A & B & L & _)|(n & l & n' & l' & A & B & L & _)]]; [exact E| |]; exfalso.
  - specialize (Mk j (n, l) n' l' Hj A B). cbn [snd] in Mk. lia.
  - specialize (Mj k (n, l) n' l' Hk A B). cbn [snd] in Mj. lia.
Qed.

(** ** The rules of a routing table *)
Definition fib_core (reg : registry) (c : core) : Prop := match_ok reg (rmatch c) /\ table c = 0 /\ exists k, inst c = mkInst None al_empty (output_set k) None false None.
Lemma fib_does k a R : inst (rcore R) = mkInst None al_empty (output_set k) None false None -> does R a -> a = ("OUTPUT", VInt k).
Proof. intros E [H|H]; rewrite E in H; cbn in H; [destruct H as [H|[]]; now rewrite H|destruct H]. Qed.
Lemma fib_rule_ok reg R : fib_core reg (rcore R) -> rule_ok reg R.
Proof.
  intros (M & T & k & E). split; [exact M|]. split; [|split].
  - apply (inst_wf_of _ [] [("OUTPUT", VInt k)]); rewrite E; [reflexivity|]. cbn [write_actions]. unfold as_of, as_extend. cbn [rfold]. rewrite output_append. reflexivity.
  - intros a Ha. apply (fib_does k a R E) in Ha. subst a. left. cbn. tauto.
  - rewrite E. discriminate.
Qed.
Lemma fib_not_mixed reg R S : fib_core reg (rcore R) -> fib_core reg (rcore S) -> ~ mixed R S.
Proof.
  intros (_ & _ & k & E) (_ & _ & k' & E') (_ & f & X). apply X.
  split; intros (a & D & A & _); exfalso; [apply (fib_does k a R E) in D|apply (fib_does k' a S E') in D]; subst a; discriminate A.
Qed.
Lemma fib_flat reg rules : (forall R, In R rules -> fib_core reg (rcore R)) -> flat rules.
Proof. intros H R HR. destruct (H R HR) as (_ & T & k & E). split; [exact T|]. now rewrite E. Qed.

(** ** Permuted rules *)
Lemma forall2_perm {A B} (Q : A -> B -> Prop) l l' : Permutation l l' -> forall P, Forall2 Q l P -> exists P', Permutation P P' /\ Forall2 Q l' P'.
Proof.
  induction 1 as [|x l l' H IH|x y l|l l1 l2 H1 IH1 H2 IH2]; intros P F.
  - inversion F; subst. exists []. auto.
  - inversion F as [|? q ? P1 Hq F1]; subst. destruct (IH P1 F1) as (P' & A1 & A2). exists (q :: P'). split; [now constructor|now constructor].
  - inversion F as [|? q ? P1 Hq F1]; subst. inversion F1 as [|? q' ? P2 Hq' F2]; subst. exists (q' :: q :: P2). split; [constructor|repeat (constructor; try assumption)].
  - destruct (IH1 P F) as (P1 & A1 & F1). destruct (IH2 P1 F1) as (P2 & A2 & F2). exists P2. split; [eapply Permutation_trans; eauto|exact F2].
Qed.
Lemma cores_prefix S L P : Permutation (map rcore S) (map rcore L) -> Forall2 (fun R q => ipv4_prefix R (fst q) (snd q)) L P ->
  exists P', Permutation P' P /\ Forall2 (fun R q => ipv4_prefix R (fst q) (snd q)) S P'.
Proof.
  intros Hp F. set (Q := fun (c : core) (q : Z * Z) => ipv4_prefix (mkRule c []) (fst q) (snd q)).
  assert (F1 : Forall2 Q (map rcore L) P). { clear - F. induction F as [|R q L P H F IH]; cbn [map]; constructor; [exact H|exact IH]. }
  destruct (forall2_perm Q _ _ (Permutation_sym Hp) P F1) as (P' & A & B). exists P'. split; [now apply Permutation_sym|].
  revert P' A B. clear. intros P' _. revert P'. induction S as [|R S IH]; intros P' B; cbn [map] in B; inversion B; subst; constructor; [assumption|auto].
Qed.

(** ** A single table made into one *)
Lemma one_table rs : (forall R, In R rs -> table (rcore R) = 0) -> rs <> [] -> SingleTable.tables_of rs = [0].
Proof.
  induction rs as [|R rs IH]; intros H N; [congruence|]. cbn [SingleTable.tables_of fold_right]. fold (SingleTable.tables_of rs). rewrite (H R (or_introl eq_refl)).
  destruct rs as [|R' rs]; [reflexivity|]. rewrite IH; [reflexivity|intros; apply H; now right|discriminate].
Qed.
Lemma sort_prio_perm l : Permutation (sort_prio l) l.
Proof.
  assert (G : forall R l, Permutation (insert_prio R l) (R :: l)).
  { clear. intros R l. induction l as [|x l IH]; [reflexivity|]. cbn [insert_prio]. destruct (_ <=? _); [reflexivity|]. rewrite IH. constructor. }
  induction l as [|R l IH]; [reflexivity|]. cbn [sort_prio fold_right]. fold (sort_prio l). rewrite G, IH. reflexivity.
Qed.
Lemma single_one rs of r : rs <> [] -> (forall R, In R rs -> table (rcore R) = 0 /\ priority (rcore R) < 2 ^ 16) -> (exists D, In D rs /\ priority (rcore D) = 0) ->
  exists out, to_single_table rs of r = (r, Ok out) /\ Permutation (map rcore out) (map rcore rs).
Proof.
  intros N H (D & HD & PD). assert (T0 := one_table rs (fun R HR => proj1 (H R HR)) N).
  assert (E : scale_ruleset rs = Ok rs).
  { unfold scale_ruleset. rewrite T0. clear T0 N HD. induction rs as [|R rs IH]; [reflexivity|]. cbn [map]. unfold scale_rule at 1. destruct (H R (or_introl eq_refl)) as [T Pr].
    unfold MAX_PRIORITY at 1. destruct (Z.leb_spec (2 ^ 16) (priority (rcore R))); [lia|]. cbn [power_of]. rewrite T. cbn [Z.eqb rbind List.length Z.of_nat]. rewrite Z.pow_0_r, Z.mul_1_r.
    cbn [rall rbind]. rewrite IH by (intros; apply H; now right). cbn [rbind]. unfold with_priority. destruct R as [[] ?]; reflexivity. }
  unfold to_single_table, slift, sbind. rewrite E. unfold to_single_table_scaled. rewrite T0. cbn [existsb Z.eqb orb negb fold_left sfold].
  assert (Hc : map rcore (map set_path rs) = map rcore rs) by (rewrite map_map; apply map_ext; intros [c [|x p]]; reflexivity).
  assert (Fd : fill_default (map set_path rs) 0 = map set_path rs).
  { unfold fill_default. assert (X : existsb (fun r => (priority (rcore r) =? 0) && in_table 0 r) (map set_path rs) = true); [|now rewrite X].
    apply existsb_exists. exists (set_path D). split; [now apply in_map|]. unfold in_table. assert (Ed : rcore (set_path D) = rcore D) by (destruct D as [c [|x p]]; reflexivity). rewrite Ed, PD, (proj1 (H D HD)). reflexivity. }
  rewrite Fd. assert (Ff : filter (in_table 0) (map set_path rs) = map set_path rs).
  { clear - H. induction rs as [|R rs IH]; [reflexivity|]. cbn [map filter]. unfold in_table at 1. assert (Ed : rcore (set_path R) = rcore R) by (destruct R as [c [|x p]]; reflexivity).
    rewrite Ed, (proj1 (H R (or_introl eq_refl))). cbn [Z.eqb]. f_equal. apply IH. intros; apply H; now right. }
  rewrite Ff. eexists. split; [reflexivity|]. rewrite <- Hc. apply Permutation_map. apply sort_prio_perm.
Qed.

(** ** The direct builder returns *)
Lemma direct_prefix_runs SHIFT one ord u rules r P : 0 < SHIFT -> SHIFT mod 2 = 0 -> one <> 0 -> matches_ok r rules -> flat rules -> prefix_table rules P ->
  exists r' e, direct_deps SHIFT one ord true u rules r = (r', Ok e) /\ forall i j, In (i, j) e <-> longest P i j.
Proof.
  intros Hs Hs2 Ho Hm H HP. assert (Hg : forall R, In R rules -> goto_table (inst (rcore R)) = None) by (intros R HR; apply H, HR).
  assert (N : rules <> []). { intros ->. destruct HP as (F & _ & I0). inversion F; subst. destruct I0. }
  destruct (C46_direct SHIFT one r rules P Hs Hs2 Ho Hm HP) as (d & Ed & _ & Kd & _). destruct (C46_direct_wildcards r rules P Hm HP) as (d' & Ed' & _ & Kd' & _).
  assert (Run : exists r' e, direct_deps SHIFT one ord true u rules r = (r', Ok e)).
  { assert (B : exists r' e, build_ruleset_deps SHIFT one (fun objs => slift (prefix_deps_bdd SHIFT one objs)) rules r = (r', Ok e)).
    { unfold build_ruleset_deps. destruct (attach_all_ok SHIFT one Hs Hs2 Ho r (objects rules)) as (ns & En & Mn & _); [intros x Hx; apply Hm; exact (objects_rule _ _ Hx)|].
      assert (Ea : attach SHIFT one (objects rules) = Ok ns) by (unfold attach; destruct (objects rules) eqn:Eo; [destruct rules; [congruence|discriminate]|exact En]).
      unfold sbind at 1, slift at 1. rewrite Ea. unfold sbind at 1. rewrite (flat_tables rules H N). cbn [sfold]. rewrite (flat_with rules H). unfold sbind at 1 2. unfold slift at 1.
      change (prefix_deps_bdd SHIFT one (objects rules)) with (build_prefix_table_deps SHIFT one rules). rewrite Ed. unfold sret at 1 2. unfold sbind. rewrite no_goto_bdd; [unfold sret; eauto|].
      intros R HR. apply Hg. apply node_in_obj in HR. rewrite Mn in HR. exact (objects_rule rules (nid R, nrule R) HR). }
    destruct u as [[]|]; cbn [direct_deps]; [exact B| |exact B].
    rewrite (hs_plain (fun objs => slift (prefix_deps_wc objs)) rules r Hg). rewrite (flat_tables rules H N). cbn [sfold]. rewrite (flat_with rules H).
    unfold skeys, sbind, slift. change (prefix_deps_wc (objects rules)) with (build_prefix_table_deps_wc rules). rewrite Ed'. unfold sret. eauto. }
  destruct Run as (r' & e & E). exists r', e. split; [exact E|].
  destruct (direct_prefix SHIFT one ord u rules r Hs Hs2 Ho Hm H N r' e E) as [(d1 & E1 & K)|(d1 & E1 & K)]; intros i j; rewrite K; [rewrite Ed in E1; injection E1 as <-; apply Kd|rewrite Ed' in E1; injection E1 as <-; apply Kd'].
Qed.
Lemma indirect_prefix_runs SHIFT one edge_ord rules r P : (forall l, Permutation (edge_ord l) l) -> matches_ok r rules -> flat rules -> prefix_table rules P ->
  exists e, indirect_deps SHIFT one edge_ord true None rules r = (r, Ok e) /\ forall i j, In (i, j) e <-> lies_in P i j.
Proof.
  intros He Hm H HP. assert (N : rules <> []). { intros ->. destruct HP as (F & _ & I0). inversion F; subst. destruct I0. }
  destruct (C46_indirect r rules P Hm HP) as (s & Es & Ns & Ks). rewrite (indirect_prefix SHIFT one edge_ord rules r H N), Es. eexists. split; [reflexivity|].
  intros i j. rewrite <- Ks. split; intros X.
  - apply (Permutation_in _ (He _)) in X. apply (proj2 (fold_eadd s [] (NoDup_nil _))) in X. cbn [In] in X. tauto.
  - apply (Permutation_in _ (Permutation_sym (He _))). apply (proj2 (fold_eadd s [] (NoDup_nil _))). auto.
Qed.
