(** Theorems for C67: direct dependencies across tables. *)
From Coq Require Import Lia Permutation Sorted.
From Coq Require Import ZifyBool ZifyNat ZifyN.
From Verif Require Import SpecBdd WildcardProofs MatchProofs BddProofs CuddProofs BddApi SpecPipeline MergeProofs Deps SpecDeps DepsProofs DepsTable DepsAny DepsIncProofs DepsMultiProofs ActionProofs MatchWcProofs NormaliseProofs PropNormalise PropMerge PropDeps PropDepsInc.
Local Open Scope string_scope.
Local Open Scope list_scope.
Local Open Scope Z_scope.
Local Opaque NB WC_FULLWC layout oxm_fields registry_init.

(** what the builders need: well-formed matches, forward gotos, and no rule with a goto pushes or
    pops tags *)
Definition ruleset_ok (r : registry) (rules : list rule) : Prop :=
  rules <> [] /\ (forall R, In R rules -> match_ok r (rmatch (rcore R))) /\
  (forall R t, In R rules -> goto_table (inst (rcore R)) = Some t -> table (rcore R) < t /\
     inst_ok (inst (rcore R)) /\ plain_acts (orig_order (apply_actions (inst (rcore R))))).

(** ** C67 *)
(** With the offline builder for each table (which also computes the egress of the rules of
    lowest priority, see C43): an edge exactly if a packet of [i] falls through to [j] in their
    table or enters [j] by the goto of [i]. *)
Theorem C67_direct_ruleset : forall SHIFT one r rules, 0 < SHIFT -> SHIFT mod 2 = 0 -> one <> 0 -> reg_ok r -> ruleset_ok r rules ->
  (forall R, In R rules -> (forall S, In S rules -> table (rcore S) = table (rcore R) -> priority (rcore R) <= priority (rcore S)) ->
     inst_ok (inst (rcore R)) /\ plain_acts (orig_order (apply_actions (inst (rcore R))))) ->
  exists r' e, build_ruleset_deps SHIFT one (table_deps_bdd SHIFT one) rules r = (r', Ok e) /\ NoDup e /\
    forall i j, In (i, j) e <-> (exists p, falls rules i j p) \/ (exists p, enters rules i j p).
Proof.
  intros SHIFT one r rules Hs Hs2 Ho Hr (Hne & Hm & Hg) Hlow.
  destruct (ruleset_runs SHIFT one Hs Hs2 Ho (table_deps_bdd SHIFT one) r rules Hr Hne Hm Hg) as (r' & e & E & _ & _ & P); [|eauto].
  intros t r0 R0 L0 Ht. eapply runs_weaken; [apply table_deps_runs; auto|].
  - split; [|split; [|split; [|split]]].
    + apply tables_of_in in Ht as (x & Hx & Et). intros X. assert (Y : In x (with_table t (objects rules))) by (now apply with_table_in). rewrite X in Y. destruct Y.
    + apply sorted_filter, objects_sorted.
    + intros x Hx. apply with_table_in in Hx as [Hx _]. eapply match_ok_mono; [exact L0|]. apply Hm. now apply objects_rule.
    + intros x y Hx Hy. apply with_table_in in Hx as [_ Hx], Hy as [_ Hy]. congruence.
    + intros x [Hx Hl]. apply with_table_in in Hx as [Hx Et]. apply Hlow; [now apply objects_rule|].
      intros S0 HS Es. apply rule_object in HS as [k HS]. apply (Hl (k, S0)). apply with_table_in. split; [exact HS|]. cbn [snd]. congruence.
  - cbn beta. intros r1 d R1 L1 (ND & A & B) i j. split.
    + intros H. apply in_map_iff in H as ([k b] & E1 & H). cbn [fst] in E1. subst k. destruct (A i j b H) as (_ & (p & Hp) & O). exists p. now apply O.
    + intros (p & Hp). destruct (B i j p Hp) as (b & Hb). apply (in_map fst) in Hb. exact Hb.
Qed.
(** The default, incremental builder needs a default rule in each table (see C45). *)
Theorem C67_direct_ruleset_incremental : forall SHIFT one ord r rules, 0 < SHIFT -> SHIFT mod 2 = 0 -> one <> 0 -> (forall l, Permutation (ord l) l) ->
  reg_ok r -> ruleset_ok r rules -> separated rules ->
  (forall R, In R rules -> exists k D, nth_error rules k = Some D /\ table (rcore D) = table (rcore R) /\ match_all D /\
     forall i T, nth_error rules i = Some T -> table (rcore T) = table (rcore R) -> i <> k -> priority (rcore D) < priority (rcore T) /\ ~ match_all T) ->
  exists r' e, build_ruleset_deps SHIFT one (table_deps_incremental SHIFT one ord) rules r = (r', Ok e) /\ NoDup e /\
    forall i j, In (i, j) e <-> (exists p, falls rules i j p) \/ (exists p, enters rules i j p).
Proof.
  intros SHIFT one ord r rules Hs Hs2 Ho Hp Hr (Hne & Hm & Hg) Hsep Hdef.
  destruct (ruleset_runs SHIFT one Hs Hs2 Ho (table_deps_incremental SHIFT one ord) r rules Hr Hne Hm Hg) as (r' & e & E & _ & _ & P); [|eauto].
  intros t r0 R0 L0 Ht. apply tables_of_in in Ht as (x & Hx & Et).
  destruct (Hdef (snd x) (objects_rule _ _ Hx)) as (k & D & HD & Td & Dall & Dlow).
  destruct (inc_runs SHIFT one ord Hs Hs2 Ho Hp r (with_table t (objects rules)) k D) with (reg := r0) as (d & E & ND & A & B).
  - split; [|split; [|split]].
    + intros X. assert (Y : In x (with_table t (objects rules))) by (now apply with_table_in). rewrite X in Y. destruct Y.
    + apply sorted_filter, objects_sorted.
    + intros y Hy. apply with_table_in in Hy as [Hy _]. apply Hm. now apply objects_rule.
    + intros y z Hy Hz. apply with_table_in in Hy as [_ Hy], Hz as [_ Hz]. congruence.
  - apply with_table_in. split; [now apply objects_in|]. cbn [snd]. congruence.
  - exact Dall.
  - intros i T H N. apply with_table_in in H as [H Eh]. apply objects_in in H. apply (Dlow i T H); [cbn [snd] in Eh; congruence|exact N].
  - intros i j R S0 p HR HS EP AR AS. apply with_table_in in HR as [HR ER], HS as [HS ES]. apply objects_in in HR, HS. cbn [snd] in ER, ES.
    apply (Hsep i j R S0 p HR HS); congruence || assumption.
  - exists r0, d. split; [exact E|]. split; [exact R0|]. split; [apply rle_refl|]. intros i j. split.
    + intros H. apply in_map_iff in H as ([i0 b] & E1 & H). cbn [fst] in E1. subst i0. destruct (A i j b H) as (_ & (p & Hp') & O). exists p. now apply O.
    + intros (p & Hp'). destruct (B i j p Hp') as (b & Hb). apply (in_map fst) in Hb. exact Hb.
Qed.
(** A rule with a goto to its own or an earlier table: no graph is returned, whatever builds the tables. *)
Theorem C67_backward_goto : forall SHIFT one build r rules R t, In R rules -> goto_table (inst (rcore R)) = Some t -> t <= table (rcore R) ->
  (forall x, In x rules -> match_ok r (rmatch (rcore x))) -> 0 < SHIFT -> SHIFT mod 2 = 0 -> one <> 0 ->
  forall reg reg' e, build_ruleset_deps SHIFT one build rules reg <> (reg', Ok e).
Proof.
  intros SHIFT one build r rules R t HR Hg Hle Hm Hs Hs2 Ho reg reg' e H.
  destruct (attach_all_ok SHIFT one Hs Hs2 Ho r (objects rules)) as (ns & En & Mn & _).
  { intros x Hx. apply Hm. now apply objects_rule. }
  apply rule_object in HR as [i HR]. rewrite <- Mn in HR. apply in_map_iff in HR as (n & [= _ <-] & Hn).
  assert (G : forall l s, In n l -> gives (sfold (goto_deps SHIFT one ns) l s) (fun _ => False)).
  { induction l as [|x l IH]; intros s Hx; [destruct Hx|]. cbn [sfold]. destruct Hx as [->|Hx].
    - intros r0 r1 a X. unfold sbind in X. rewrite (goto_backward SHIFT one r0 ns n t s Hg Hle) in X. discriminate X.
    - eapply gives_bind; [apply gives_any|]. intros a _. now apply IH. }
  assert (K : gives (build_ruleset_deps SHIFT one build rules) (fun _ => False)); [|exact (K _ _ _ H)].
  unfold build_ruleset_deps. eapply gives_bind with (post := fun a => a = ns).
  - intros r0 r1 a X. unfold slift in X. unfold attach in X. destruct (objects rules) eqn:Eo; [discriminate X|]. rewrite En in X. congruence.
  - intros a ->. eapply gives_bind; [apply gives_any|]. intros d _. eapply gives_bind; [now apply G|]. intros s [].
Qed.

(** Example: the first rule rewrites the bit that its goto table looks at, so its packets enter
    the rule at 3 although its match overlaps only the rule at 2. *)
Definition mk_g (prio tbl : Z) (items : list (string * (Z * option Z))) (i : instructions) : rule := mkRule (mk_core2 prio tbl items i) [].
Definition ex67 : list rule :=
  [mk_g 10 0 [("MPLS_BOS", (0, None))] (mk_full [SETF "MPLS_BOS" 1] [] (Some 1) false None); mk_g 0 0 [] (mk_full [OUTPUT 9] [] None false None);
   mk_g 20 1 [("MPLS_BOS", (0, None))] (mk_full [OUTPUT 1] [] None false None); mk_g 20 1 [("MPLS_BOS", (1, None))] (mk_full [OUTPUT 2] [] None false None);
   mk_g 0 1 [] (mk_full [] [] None false None)].
Lemma ex67_proper : Forall (fun R => proper registry_init true (rcore R)) ex67.
Proof. repeat (constructor; [apply mk_proper; vm_compute; reflexivity|]). constructor. Qed.
Lemma ex67_plain R : In R ex67 -> inst_ok (inst (rcore R)) /\ plain_acts (orig_order (apply_actions (inst (rcore R)))).
Proof.
  intros H. assert (P := ex67_proper). rewrite Forall_forall in P. specialize (P R H). destruct P as (_ & B & C & _). split; [|exact C].
  exact (proj1 B).
Qed.
Lemma ex67_ok : ruleset_ok registry_init ex67.
Proof.
  split; [discriminate|]. split.
  - intros R H. assert (P := ex67_proper). rewrite Forall_forall in P. exact (proj1 (P R H)).
  - intros R t H E. split; [|now apply ex67_plain]. destruct H as [<-|[<-|[<-|[<-|[<-|[]]]]]]; try discriminate E. injection E as <-. reflexivity.
Qed.
Lemma ex67_separated : separated ex67.
Proof.
  intros i j R S0 p HR HS T E AR AS. destruct i as [|[|[|[|[|i]]]]]; [| | | | |destruct i; discriminate HR]; (destruct j as [|[|[|[|[|j]]]]]; [| | | | |destruct j; discriminate HS]);
    injection HR as <-; injection HS as <-; try reflexivity; try (vm_compute in E; discriminate E); try (vm_compute in T; discriminate T);
    ((apply bos0_accepts in AR; [|reflexivity]) || (apply bos_accepts in AR; [|reflexivity])); ((apply bos0_accepts in AS; [|reflexivity]) || (apply bos_accepts in AS; [|reflexivity])); congruence.
Qed.
Lemma ex67_default R : In R ex67 -> exists k D, nth_error ex67 k = Some D /\ table (rcore D) = table (rcore R) /\ match_all D /\
  forall i T, nth_error ex67 i = Some T -> table (rcore T) = table (rcore R) -> i <> k -> priority (rcore D) < priority (rcore T) /\ ~ match_all T.
Proof.
  assert (G : forall t k D, (t = 0 /\ k = 1%nat) \/ (t = 1 /\ k = 4%nat) -> nth_error ex67 k = Some D -> table (rcore D) = t /\ match_all D /\
    forall i T, nth_error ex67 i = Some T -> table (rcore T) = t -> i <> k -> priority (rcore D) < priority (rcore T) /\ ~ match_all T).
  { intros t k D [[-> ->]|[-> ->]] H; injection H as <-; (split; [reflexivity|]); (split; [intros p it []|]); intros i T H E N;
    (destruct i as [|[|[|[|[|i]]]]]; [| | | | |destruct i; discriminate H]); injection H as <-; try (now elim N); try (vm_compute in E; discriminate E); (split; [vm_compute; reflexivity|]); intros X.
    - specialize (X (bit420 true)). apply bos0_accepts in X; [|reflexivity]. discriminate X.
    - specialize (X (bit420 true)). apply bos0_accepts in X; [|reflexivity]. discriminate X.
    - specialize (X (bit420 false)). apply bos_accepts in X; [|reflexivity]. discriminate X. }
  intros H. assert (T : table (rcore R) = 0 \/ table (rcore R) = 1) by (destruct H as [<-|[<-|[<-|[<-|[<-|[]]]]]]; auto).
  destruct T as [T|T]; rewrite T; [exists 1%nat|exists 4%nat]; eexists; (split; [reflexivity|]); (eapply G; [|reflexivity]); auto.
Qed.
Lemma ex67_rewrite q : inst_header (inst (rcore (nth 0 ex67 push_rule))) q 420 = true.
Proof. vm_compute. reflexivity. Qed.
Example C67_ex : exists r' e, build_ruleset_deps 30 1 (table_deps_incremental 30 1 (fun l => l)) ex67 registry_init = (r', Ok e) /\
  In (0, 1)%nat e /\ In (0, 3)%nat e /\ ~ In (0, 2)%nat e /\ ~ In (0, 4)%nat e.
Proof.
  destruct (C67_direct_ruleset_incremental 30 1 (fun l => l) registry_init ex67 ltac:(lia) eq_refl ltac:(lia) (fun l => Permutation_refl l) reg_init_ok ex67_ok ex67_separated ex67_default)
    as (r' & e & E & _ & K). exists r', e. split; [exact E|].
  assert (A : forall j p, enters ex67 0 j p -> p 420 = true /\ exists S0, nth_error ex67 j = Some S0 /\ rule_accepts S0 p /\ table (rcore S0) = 1 /\
    forall k T, nth_error ex67 k = Some T -> table (rcore T) = 1 -> rule_accepts T p -> priority (rcore T) < priority (rcore S0) \/ (priority (rcore T) = priority (rcore S0) /\ (j <= k)%nat)).
  { intros j p (R & S0 & t & q & HR & HS & Hg & Ht & Hq & Hp & HA & Mx). injection HR as <-. injection Hg as <-. split; [rewrite Hp; apply ex67_rewrite|]. eauto 6. }
  split; [|split; [|split]].
  - apply K. left. exists (bit420 false). eexists _, _. split; [reflexivity|]. split; [reflexivity|]. split; [reflexivity|]. split; [vm_compute; reflexivity|].
    split; [now apply bos0_accepts|]. split; [now apply def_accepts|].
    intros k T HT Tt Lt AT. destruct k as [|[|[|[|[|k]]]]]; [| | | | |destruct k; discriminate HT]; injection HT as <-; try (vm_compute in Tt; discriminate Tt); try (vm_compute in Lt; discriminate Lt).
    right. split; [reflexivity|lia].
  - apply K. right. exists (inst_header (inst (rcore (nth 0 ex67 push_rule))) (bit420 false)). eexists _, _, 1, (bit420 false).
    split; [reflexivity|]. split; [reflexivity|]. split; [reflexivity|]. split; [reflexivity|]. split; [now apply bos0_accepts|]. split; [reflexivity|].
    split; [apply bos_accepts; [reflexivity|]; apply ex67_rewrite|].
    intros k T HT Tt AT. destruct k as [|[|[|[|[|k]]]]]; [| | | | |destruct k; discriminate HT]; injection HT as <-; try (vm_compute in Tt; discriminate Tt).
    + apply bos0_accepts in AT; [|reflexivity]. rewrite ex67_rewrite in AT. discriminate AT.
    + right. split; [reflexivity|lia].
    + left. vm_compute. reflexivity.
  - intros X. apply K in X as [(p & X)|(p & X)].
    + destruct X as (R & S0 & HR & HS & T & _). injection HR as <-. injection HS as <-. vm_compute in T. discriminate T.
    + apply A in X as (Hp & S0 & HS & AS & _). injection HS as <-. apply bos0_accepts in AS; [|reflexivity]. congruence.
  - intros X. apply K in X as [(p & X)|(p & X)].
    + destruct X as (R & S0 & HR & HS & T & _). injection HR as <-. injection HS as <-. vm_compute in T. discriminate T.
    + apply A in X as (Hp & S0 & HS & AS & _ & Mx). injection HS as <-. destruct (Mx 3%nat _ eq_refl eq_refl) as [L|[L _]].
      * apply bos_accepts; [reflexivity|exact Hp].
      * vm_compute in L. discriminate L.
      * vm_compute in L. discriminate L.
Qed.
(** the offline builder on the same rules; the rule at 0 sent back to its own table *)
Example C67_ex_offline : exists r' e, build_ruleset_deps 30 1 (table_deps_bdd 30 1) ex67 registry_init = (r', Ok e).
Proof.
  destruct (C67_direct_ruleset 30 1 registry_init ex67 ltac:(lia) eq_refl ltac:(lia) reg_init_ok ex67_ok (fun R H _ => ex67_plain R H)) as (r' & e & E & _). eauto.
Qed.
Example C67_ex_backward : let R := mk_g 5 1 [] (mk_full [] [] (Some 1) false None) in
  goto_table (inst (rcore R)) = Some 1 /\ 1 <= table (rcore R) /\ match_ok registry_init (rmatch (rcore R)).
Proof. split; [reflexivity|]. split; [vm_compute; discriminate|]. now apply mk_match_ok. Qed.

Print Assumptions C67_direct_ruleset.
Print Assumptions C67_direct_ruleset_incremental.
Print Assumptions C67_backward_goto.
