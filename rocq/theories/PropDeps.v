(** Theorems for C43, C44, C47, C48: dependencies within one table. *)
From Coq Require Import Lia Permutation Sorted.
From Coq Require Import ZifyBool ZifyNat ZifyN.
From Verif Require Import SpecBdd WildcardProofs HSProofs MatchProofs BddProofs CuddProofs BddApi SpecPipeline MergeProofs Deps SpecDeps DepsProofs DepsTable DepsAny ActionProofs MatchWcProofs NormaliseProofs PropNormalise.
Local Open Scope string_scope.
Local Open Scope list_scope.
Local Open Scope Z_scope.
Local Opaque NB WC_FULLWC layout oxm_fields registry_init.

(** ** C43 *)
(** For any table of rules whose matches were built by the public operations: if the builder
    returns, it reports each edge once, and an edge exactly if some packet falls through. *)
Theorem C43_direct_dependencies : forall SHIFT one r rules, 0 < SHIFT -> SHIFT mod 2 = 0 -> one <> 0 -> table_of_rules r rules ->
  forall reg reg' d, build_table_deps SHIFT one rules reg = (reg', Ok d) ->
  NoDup (map fst d) /\ forall i j, In (i, j) (map fst d) <-> exists p, falls rules i j p.
Proof.
  intros SHIFT one r rules Hs Hs2 Ho Ht reg reg' d E.
  destruct (table_deps_gives SHIFT one Hs Hs2 Ho r _ (table_of_plain r rules Ht) _ _ _ E) as (ND & A & B). split; [exact ND|].
  assert (F := fun i j p => falls_objects rules i j p (proj2 (proj2 Ht))). intros i j. split.
  - intros H. apply in_map_iff in H as ([k b] & E1 & H). cbn [fst] in E1. subst k. destruct (A i j b H) as (_ & (p & Hp) & O). exists p. apply F. now apply O.
  - intros (p & Hp). apply F in Hp. destruct (B i j p Hp) as (b & Hb). apply (in_map fst) in Hb. exact Hb.
Qed.
(** It returns if the rules of the lowest priority push and pop no tags. *)
Theorem C43_builds : forall SHIFT one r rules, 0 < SHIFT -> SHIFT mod 2 = 0 -> one <> 0 -> reg_ok r -> single_ok r rules ->
  exists r' d, build_table_deps SHIFT one rules r = (r', Ok d).
Proof.
  intros SHIFT one r rules Hs Hs2 Ho Hr Ht. destruct (table_deps_runs SHIFT one Hs Hs2 Ho r _ Hr (single_table_ok r rules Ht)) as (r' & d & E & _). eauto.
Qed.
(** Otherwise the egress of a lowest-priority rule is still computed, for nothing, and may raise. *)
Definition PUSHV : action := ("PUSH_VLAN", VInt 33024).
Definition push_rule : rule := mk_rule 0 0 [("VLAN_VID", (4097, None))] (repeat PUSHV 9).
Theorem C43_returns_refuted : exists r rules, reg_ok r /\ table_of_rules r rules /\
  exists r', build_table_deps_hs rules r = (r', Err OverflowError).
Proof.
  exists registry_init, [push_rule]. split; [apply reg_init_ok|]. split.
  - split; [discriminate|]. split; [intros R [<-|[]]; now apply mk_match_ok|]. intros R S0 [<-|[]] [<-|[]]. reflexivity.
  - assert (H : snd (build_table_deps_hs [push_rule] registry_init) = Err OverflowError) by (vm_compute; reflexivity).
    destruct (build_table_deps_hs [push_rule] registry_init) as [r' x]. cbn [snd] in H. exists r'. now rewrite H.
Qed.
(** Example: three rules, two of which cover the first; the default is never reached from it. *)
Definition ex43 : list rule :=
  [mk_rule 30 0 [] [OUTPUT 1]; mk_rule 20 0 [("MPLS_BOS", (0, None))] [OUTPUT 2]; mk_rule 20 0 [("MPLS_BOS", (1, None))] [OUTPUT 3]; mk_rule 0 0 [] []].
Lemma ex43_single : single_ok registry_init ex43.
Proof.
  split; [discriminate|]. split; [intros R [<-|[<-|[<-|[<-|[]]]]]; now apply mk_match_ok|].
  split; [intros R S0 [<-|[<-|[<-|[<-|[]]]]] [<-|[<-|[<-|[<-|[]]]]]; reflexivity|].
  intros R [HR HL]. assert (E : priority (rcore R) <= 0) by (apply (HL (mk_rule 0 0 [] [])); right; right; right; now left).
  destruct HR as [<-|[<-|[<-|[<-|[]]]]]; try (exfalso; revert E; vm_compute; congruence).
  split; [apply al_empty_ok|constructor].
Qed.
Lemma ex43_table : table_of_rules registry_init ex43.
Proof. destruct ex43_single as (A & B & C & _). split; [auto|]. split; auto. Qed.
Lemma bos0_accepts r p : m_items (rmatch (rcore r)) = m_items (mk_match [("MPLS_BOS", (0, None))]) -> (rule_accepts r p <-> p 420 = false).
Proof.
  intros E. unfold rule_accepts. rewrite E. split.
  - intros H. specialize (H ("MPLS_BOS", (0, None)) (or_introl eq_refl) (Slot "MPLS_BOS" 420 1)). apply (H ltac:(vm_compute; tauto) eq_refl 0); [cbn; lia|reflexivity].
  - intros Hp it [<-|[]] s Hs En j Hj _. cbn [fst snd] in *.
    assert (s = Slot "MPLS_BOS" 420 1) as -> by (apply slot_name_inj; [auto|vm_compute; tauto|exact En]).
    cbn [sl_bits] in Hj. assert (j = 0) as -> by lia. exact Hp.
Qed.
Lemma ex43_falls i j p : falls ex43 i j p <-> (i = 0%nat /\ j = 1%nat /\ p 420 = false) \/ (i = 0%nat /\ j = 2%nat /\ p 420 = true) \/
  (i = 1%nat /\ j = 3%nat /\ p 420 = false) \/ (i = 2%nat /\ j = 3%nat /\ p 420 = true).
Proof.
  assert (A0 : rule_accepts (nth 0 ex43 push_rule) p) by (now apply def_accepts).
  assert (A1 : rule_accepts (nth 1 ex43 push_rule) p <-> p 420 = false) by (now apply bos0_accepts).
  assert (A2 : rule_accepts (nth 2 ex43 push_rule) p <-> p 420 = true) by (now apply bos_accepts).
  assert (A3 : rule_accepts (nth 3 ex43 push_rule) p) by (now apply def_accepts).
  cbn [nth ex43] in A0, A1, A2, A3.
  assert (Nth : forall k T, nth_error ex43 k = Some T -> (k = 0%nat /\ T = nth 0 ex43 push_rule) \/ (k = 1%nat /\ T = nth 1 ex43 push_rule) \/ (k = 2%nat /\ T = nth 2 ex43 push_rule) \/ (k = 3%nat /\ T = nth 3 ex43 push_rule)).
  { intros k T. destruct k as [|[|[|[|k]]]]; cbn [nth_error ex43 nth]; intros H; try (injection H as <-; auto 8). destruct k; discriminate. }
  assert (P : map (fun r => priority (rcore r)) ex43 = [30; 20; 20; 0]) by reflexivity. cbn [map ex43] in P.
  assert (P0 : priority (rcore (nth 0 ex43 push_rule)) = 30) by reflexivity. assert (P1 : priority (rcore (nth 1 ex43 push_rule)) = 20) by reflexivity.
  assert (P2 : priority (rcore (nth 2 ex43 push_rule)) = 20) by reflexivity. assert (P3 : priority (rcore (nth 3 ex43 push_rule)) = 0) by reflexivity.
  fold (nth 0 ex43 push_rule) in A0. change (rule_accepts (nth 0 ex43 push_rule) p) in A0. change (rule_accepts (nth 1 ex43 push_rule) p <-> p 420 = false) in A1.
  change (rule_accepts (nth 2 ex43 push_rule) p <-> p 420 = true) in A2. change (rule_accepts (nth 3 ex43 push_rule) p) in A3.
  assert (Tb : forall k T, nth_error ex43 k = Some T -> table (rcore T) = 0).
  { intros k T H. apply Nth in H. destruct H as [[_ ->]|[[_ ->]|[[_ ->]|[_ ->]]]]; reflexivity. }
  assert (N : forall k, (k < 4)%nat -> nth_error ex43 k = Some (nth k ex43 push_rule)) by (intros k Hk; apply nth_error_nth'; exact Hk).
  revert A0 A1 A2 A3 P0 P1 P2 P3 Nth Tb N. generalize ex43. clear P. intros ex A0 A1 A2 A3 P0 P1 P2 P3 Nth Tb N. split.
  - intros (R & S0 & HR & HS & _ & Lt & AR & AS & Mx).
    assert (M1 := Mx 1%nat _ (N 1%nat ltac:(lia))). assert (M2 := Mx 2%nat _ (N 2%nat ltac:(lia))). assert (M3 := Mx 3%nat _ (N 3%nat ltac:(lia))).
    assert (T1 := Tb _ _ (N 1%nat ltac:(lia))). assert (T2 := Tb _ _ (N 2%nat ltac:(lia))). assert (T3 := Tb _ _ (N 3%nat ltac:(lia))).
    rewrite (Tb _ _ HR) in M1, M2, M3. specialize (M1 T1). specialize (M2 T2). specialize (M3 T3).
    destruct (p 420) eqn:Ep.
    + destruct (Nth _ _ HR) as [[-> ->]|[[-> ->]|[[-> ->]|[-> ->]]]], (Nth _ _ HS) as [[-> ->]|[[-> ->]|[[-> ->]|[-> ->]]]]; intuition (try lia; try congruence).
    + destruct (Nth _ _ HR) as [[-> ->]|[[-> ->]|[[-> ->]|[-> ->]]]], (Nth _ _ HS) as [[-> ->]|[[-> ->]|[[-> ->]|[-> ->]]]]; intuition (try lia; try congruence).
  - intros H.
    assert (G : forall i j, (i < 4)%nat -> (j < 4)%nat -> priority (rcore (nth j ex push_rule)) < priority (rcore (nth i ex push_rule)) ->
      rule_accepts (nth i ex push_rule) p -> rule_accepts (nth j ex push_rule) p ->
      (forall k, (k < 4)%nat -> priority (rcore (nth k ex push_rule)) < priority (rcore (nth i ex push_rule)) -> rule_accepts (nth k ex push_rule) p ->
        priority (rcore (nth k ex push_rule)) < priority (rcore (nth j ex push_rule)) \/ (priority (rcore (nth k ex push_rule)) = priority (rcore (nth j ex push_rule)) /\ (j <= k)%nat)) ->
      falls ex i j p).
    { intros a b Ha Hb H1 H2 H3 H4. exists (nth a ex push_rule), (nth b ex push_rule). split; [auto|]. split; [auto|].
      split; [rewrite (Tb _ _ (N a Ha)), (Tb _ _ (N b Hb)); reflexivity|]. repeat split; auto. intros k T HT _ L A. apply Nth in HT.
      destruct HT as [[-> ->]|[[-> ->]|[[-> ->]|[-> ->]]]]; [apply (H4 0%nat)|apply (H4 1%nat)|apply (H4 2%nat)|apply (H4 3%nat)]; auto; lia. }
    destruct H as [(-> & -> & E)|[(-> & -> & E)|[(-> & -> & E)|(-> & -> & E)]]]; (apply G; [lia|lia|lia|tauto|tauto|]);
      intros k Hk; (assert (K : k = 0%nat \/ k = 1%nat \/ k = 2%nat \/ k = 3%nat) by lia); destruct K as [K|[K|[K|K]]]; subst k; intros L A; try lia;
      exfalso; (apply A2 in A || apply A1 in A); congruence.
Qed.
Definition bit420 (v : bool) : packet := fun i => if i =? 420 then v else false.
Example C43_ex : table_of_rules registry_init ex43 /\ single_ok registry_init ex43 /\
  (exists r' d, build_table_deps 30 1 ex43 registry_init = (r', Ok d)) /\
  (exists p, falls ex43 0 1 p) /\ (exists p, falls ex43 2 3 p) /\ ~ exists p, falls ex43 0 3 p.
Proof.
  split; [apply ex43_table|]. split; [apply ex43_single|].
  split; [apply (C43_builds 30 1); [lia|reflexivity|lia|apply reg_init_ok|apply ex43_single]|].
  split; [exists (bit420 false); apply ex43_falls; tauto|]. split; [exists (bit420 true); apply ex43_falls; tauto|].
  intros (p & H). apply ex43_falls in H. destruct H as [(_ & X & _)|[(_ & X & _)|[(X & _)|(X & _)]]]; discriminate X.
Qed.

(** ** C44 *)
(** the packets that a result attaches to an edge *)
Definition space (d : list (edge * add)) (i j : nat) (p : packet) : Prop := exists b, In ((i, j), b) d /\ adenote b p <> 0.
Theorem C44_spaces_partition : forall SHIFT one r rules, 0 < SHIFT -> SHIFT mod 2 = 0 -> one <> 0 -> table_of_rules r rules ->
  forall reg reg' d, build_table_deps SHIFT one rules reg = (reg', Ok d) ->
  (forall i j k p, space d i j p -> space d i k p -> j = k) /\
  (forall i j R S p, nth_error rules i = Some R -> nth_error rules j = Some S -> space d i j p -> rule_accepts R p /\ rule_accepts S p) /\
  (forall i R p, nth_error rules i = Some R -> ((exists j, space d i j p) <->
     rule_accepts R p /\ exists S, In S rules /\ priority (rcore S) < priority (rcore R) /\ rule_accepts S p)) /\
  (forall i j b, In ((i, j), b) d -> add_wf 0 b /\ (exists p, adenote b p <> 0) /\
     forall p, (falls rules i j p -> adenote b p = one) /\ (~ falls rules i j p -> adenote b p = 0)).
Proof.
  intros SHIFT one r rules Hs Hs2 Ho Ht reg reg' d E.
  destruct (table_deps_gives SHIFT one Hs Hs2 Ho r _ (table_of_plain r rules Ht) _ _ _ E) as (ND & A & B).
  destruct Ht as (_ & Hm & HT). assert (F := fun i j p => falls_objects rules i j p HT).
  assert (Sp : forall i j p, space d i j p <-> falls rules i j p).
  { intros i j p. split.
    - intros (b & Hb & Hp). apply F. destruct (A i j b Hb) as (_ & _ & O). now apply O.
    - intros H. apply F in H. destruct (B i j p H) as (b & Hb). exists b. split; [auto|]. destruct (A i j b Hb) as (_ & _ & O). now apply O. }
  split; [|split; [|split]].
  - intros i j k p H1 H2. apply Sp in H1, H2. destruct H1 as (R & S1 & HR & HS1 & T1 & L1 & AR & A1 & M1). destruct H2 as (R' & S2 & HR' & HS2 & T2 & L2 & _ & A2 & M2).
    assert (X : R' = R) by congruence. rewrite X in *. clear X. specialize (M1 k S2 HS2 T2 L2 A2). specialize (M2 j S1 HS1 T1 L1 A1). lia.
  - intros i j R S0 p HR HS H. apply Sp in H. destruct H as (R' & S' & HR' & HS' & _ & _ & AR & AS & _). assert (X : R' = R) by congruence. assert (Y : S' = S0) by congruence. rewrite X in AR. rewrite Y in AS. auto.
  - intros i R p HR. split.
    + intros (j & H). apply Sp in H. destruct H as (R' & S' & HR' & HS' & _ & L & AR & AS & _). assert (X : R' = R) by congruence. rewrite X in *.
      split; [auto|]. exists S'. split; [eapply nth_error_In; eauto|auto].
    + intros (AR & S0 & HS & L & AS).
      assert (Dec : forall T, In T rules -> {w | match_wc (rmatch (rcore T)) = Ok w /\ forall q, accepts w q <-> rule_accepts T q}).
      { intros T HTin. destruct (match_wc (rmatch (rcore T))) as [w|e] eqn:Ew.
        - exists w. split; [reflexivity|]. destruct (match_wc_ok r _ (Hm T HTin)) as (w' & E' & _ & _ & A'). assert (w' = w) by congruence. subst w'. exact A'.
        - exfalso. destruct (match_wc_ok r _ (Hm T HTin)) as (w' & E' & _). congruence. }
      set (f := fun x : nat * rule => (priority (rcore (snd x)) <? priority (rcore R)) && match match_wc (rmatch (rcore (snd x))) with Ok w => acceptsb w p | Err _ => false end).
      assert (Ff : forall k T, In (k, T) (objects rules) -> (f (k, T) = true <-> priority (rcore T) < priority (rcore R) /\ rule_accepts T p)).
      { intros k T HTin. unfold f. cbn [snd]. destruct (Dec T (objects_rule _ _ HTin)) as (w & -> & Aw). rewrite andb_true_iff, acceptsb_spec, Aw, Z.ltb_lt. reflexivity. }
      apply rule_object in HS as [k0 HS].
      destruct (max_exists (fun x => priority (rcore (snd x))) (filter f (objects rules))) as ([k1 S1] & H1 & M1).
      { intros X. assert (Y : In (k0, S0) (filter f (objects rules))) by (apply filter_In; split; [auto|]; now apply Ff). rewrite X in Y. destruct Y. }
      destruct (max_exists (fun x => - Z.of_nat (fst x)) (filter (fun x => priority (rcore (snd x)) =? priority (rcore S1)) (filter f (objects rules)))) as ([k2 S2] & H2 & M2).
      { intros X. assert (Y : In (k1, S1) (filter (fun x => priority (rcore (snd x)) =? priority (rcore S1)) (filter f (objects rules)))) by (apply filter_In; split; [auto|]; cbn [snd]; lia). rewrite X in Y. destruct Y. }
      apply filter_In in H2 as [H2 Q2]. cbn [snd fst] in *. apply filter_In in H2 as [H2 Q3]. apply Ff in Q3 as [Q3 Q4]; [|auto]. exists k2. apply Sp. apply F.
      exists R, S2. split; [now apply objects_in|]. split; [auto|]. split; [auto|]. split; [auto|]. split; [auto|].
      intros k T HTin LT AT. assert (Y : In (k, T) (filter f (objects rules))) by (apply filter_In; split; [auto|]; now apply Ff).
      specialize (M1 _ Y). cbn [snd] in M1. destruct (Z.eq_dec (priority (rcore T)) (priority (rcore S1))) as [Eq|]; [|lia]. right. split; [lia|].
      assert (Y2 : In (k, T) (filter (fun x => priority (rcore (snd x)) =? priority (rcore S1)) (filter f (objects rules)))) by (apply filter_In; split; [auto|]; cbn [snd]; lia).
      specialize (M2 _ Y2). cbn [fst] in M2. lia.
  - intros i j b H. destruct (A i j b H) as ([Wb Vb] & Ne & O). split; [auto|]. split; [exact Ne|]. intros p. unfold on in O. specialize (O p). rewrite F in O.
    destruct (Vb p) as [V|V]; rewrite V in *; split; intros Q; tauto.
Qed.
(** the example above: the spaces of its first rule are the two halves *)
Example C44_ex : table_of_rules registry_init ex43 /\
  (exists r' d, build_table_deps 30 1 ex43 registry_init = (r', Ok d) /\ space d 0 1 (bit420 false) /\ space d 0 2 (bit420 true) /\ ~ space d 0 1 (bit420 true)).
Proof.
  split; [apply ex43_table|].
  destruct (C43_builds 30 1 registry_init ex43 ltac:(lia) eq_refl ltac:(lia) reg_init_ok ex43_single) as (r' & d & E). exists r', d. split; [exact E|].
  destruct (C43_direct_dependencies 30 1 registry_init ex43 ltac:(lia) eq_refl ltac:(lia) ex43_table _ _ _ E) as [ND K].
  destruct (C44_spaces_partition 30 1 registry_init ex43 ltac:(lia) eq_refl ltac:(lia) ex43_table _ _ _ E) as (_ & _ & _ & V).
  assert (G : forall i j p, falls ex43 i j p -> space d i j p).
  { intros i j p H. assert (X : In (i, j) (map fst d)) by (apply K; eauto). apply in_map_iff in X as ([k b] & E1 & X). cbn [fst] in E1. subst k.
    exists b. split; [auto|]. destruct (V i j b X) as (_ & _ & W). rewrite (proj1 (W p) H). discriminate. }
  split; [apply G, ex43_falls; auto|]. split; [apply G, ex43_falls; auto|].
  intros (b & Hb & Hp). destruct (V _ _ _ Hb) as (_ & _ & W). apply Hp, (proj2 (W _)). intros X. apply ex43_falls in X.
  destruct X as [(_ & _ & X)|[(_ & X & _)|[(X & _)|(X & _)]]]; discriminate X.
Qed.

(** ** C47 *)
Theorem C47_indirect_dependencies : forall SHIFT one r rules, 0 < SHIFT -> SHIFT mod 2 = 0 -> one <> 0 -> table_of_rules r rules ->
  (forall reg reg' s, ind_table_deps (objects rules) reg = (reg', Ok s) -> NoDup s /\ forall i j, In (i, j) s <-> exists p, covers rules i j p) /\
  (forall reg reg' s, ind_table_deps_bdd SHIFT one (objects rules) reg = (reg', Ok s) -> NoDup s /\ forall i j, In (i, j) s <-> exists p, covers rules i j p).
Proof.
  intros SHIFT one r rules Hs Hs2 Ho Ht. destruct (ind_table_gives SHIFT one Hs Hs2 Ho r _ (table_of_plain r rules Ht)) as [A B].
  assert (F := fun i j p => covers_objects rules i j p (proj2 (proj2 Ht))).
  split; intros reg reg' s E; [destruct (A _ _ _ E) as [N H]|destruct (B _ _ _ E) as [N H]]; (split; [exact N|]); intros i j; rewrite H;
    split; intros (p & Hp); exists p; apply F; exact Hp.
Qed.
(** Both return if the rules of the lowest priority push and pop no tags, and report the same edges. *)
Theorem C47_variants_agree : forall SHIFT one r rules, 0 < SHIFT -> SHIFT mod 2 = 0 -> one <> 0 -> reg_ok r -> single_ok r rules ->
  exists r1 s1 r2 s2, ind_table_deps (objects rules) r = (r1, Ok s1) /\ ind_table_deps_bdd SHIFT one (objects rules) r = (r2, Ok s2) /\ Permutation s1 s2.
Proof.
  intros SHIFT one r rules Hs Hs2 Ho Hr Ht.
  destruct (ind_table_runs SHIFT one Hs Hs2 Ho r _ Hr (single_table_ok r rules Ht)) as [(r1 & s1 & E1 & _ & _ & N1 & H1) (r2 & s2 & E2 & _ & _ & N2 & H2)].
  exists r1, s1, r2, s2. split; [auto|]. split; [auto|]. apply NoDup_Permutation; auto. intros [i j]. now rewrite H1, H2.
Qed.
(** Every direct dependency is an indirect one. *)
Theorem C47_direct_is_indirect : forall rules i j p, falls rules i j p -> covers rules i j p.
Proof. intros rules i j p (R & S0 & H1 & H2 & H3 & H4 & H5 & H6 & _). exists R, S0. auto 10. Qed.
Example C47_ex : table_of_rules registry_init ex43 /\ (exists p, covers ex43 0 3 p) /\ (~ exists p, covers ex43 1 2 p) /\
  match snd (ind_table_deps (objects ex43) registry_init) with Ok s => s | Err _ => [] end = [(0, 1); (0, 2); (0, 3); (1, 3); (2, 3)]%nat.
Proof.
  split; [apply ex43_table|]. split; [|split; [|vm_compute; reflexivity]].
  - exists (bit420 true), (nth 0 ex43 push_rule), (nth 3 ex43 push_rule). split; [reflexivity|]. split; [reflexivity|]. split; [reflexivity|].
    split; [reflexivity|]. split; now apply def_accepts.
  - intros (p & R & S0 & HR & HS & _ & L & _). injection HR as <-. injection HS as <-. revert L. vm_compute. congruence.
Qed.

(** ** C48 *)
(** The headerspace variant reports every edge; the space of each is exact, but it may also
    report edges with an empty space. *)
Theorem C48_headerspace_partial : forall r rules, table_of_rules r rules -> forall reg reg' d, build_table_deps_hs rules reg = (reg', Ok d) ->
  NoDup (map fst d) /\ (forall i j, (exists p, falls rules i j p) -> In (i, j) (map fst d)) /\
  (forall i j h, In ((i, j), h) d -> forall p, hs_accepts h p <-> falls rules i j p) /\
  (forall i j, In (i, j) (map fst d) -> exists R S, nth_error rules i = Some R /\ nth_error rules j = Some S /\ priority (rcore S) < priority (rcore R)).
Proof.
  intros r rules Ht reg reg' d E. destruct (table_deps_hs_gives 0 r _ (table_of_plain r rules Ht) _ _ _ E) as (ND & A & B).
  assert (F := fun i j p => falls_objects rules i j p (proj2 (proj2 Ht))). split; [exact ND|]. split; [|split].
  - intros i j (p & Hp). apply F in Hp. destruct (B i j p Hp) as (h & Hh). apply (in_map fst) in Hh. exact Hh.
  - intros i j h H p. rewrite <- F. now apply (A i j h H).
  - intros i j H. apply in_map_iff in H as ([k h] & E1 & H). cbn [fst] in E1. subst k. destruct (A i j h H) as [(R & S0 & H1 & H2 & H3) _].
    apply objects_in in H1, H2. eauto 6.
Qed.
(** Every edge of the BDD variant is an edge of the headerspace variant. *)
Theorem C48_never_misses : forall SHIFT one r rules, 0 < SHIFT -> SHIFT mod 2 = 0 -> one <> 0 -> table_of_rules r rules ->
  forall reg r1 d1 r2 d2, build_table_deps SHIFT one rules reg = (r1, Ok d1) -> build_table_deps_hs rules reg = (r2, Ok d2) ->
  incl (map fst d1) (map fst d2).
Proof.
  intros SHIFT one r rules Hs Hs2 Ho Ht reg r1 d1 r2 d2 E1 E2 [i j] H.
  apply (C43_direct_dependencies SHIFT one r rules Hs Hs2 Ho Ht _ _ _ E1) in H. now apply (C48_headerspace_partial r rules Ht _ _ _ E2).
Qed.
Theorem C48_same_edges_refuted : exists r rules r1 d1 r2 d2 i j, reg_ok r /\ single_ok r rules /\
  build_table_deps 30 1 rules r = (r1, Ok d1) /\ build_table_deps_hs rules r = (r2, Ok d2) /\ In (i, j) (map fst d2) /\ ~ In (i, j) (map fst d1).
Proof.
  destruct (C43_builds 30 1 registry_init ex43 ltac:(lia) eq_refl ltac:(lia) reg_init_ok ex43_single) as (r1 & d1 & E1).
  destruct (build_table_deps_hs ex43 registry_init) as [r2 [d2|e]] eqn:E2.
  - exists registry_init, ex43, r1, d1, r2, d2, 0%nat, 3%nat. split; [apply reg_init_ok|]. split; [apply ex43_single|]. split; [auto|]. split; [auto|]. split.
    + assert (X : match snd (build_table_deps_hs ex43 registry_init) with Ok d => existsb (edge_eqb (0, 3)%nat) (map fst d) | Err _ => false end = true) by (vm_compute; reflexivity).
      rewrite E2 in X. cbn [snd] in X. apply existsb_exists in X as (e & He & Q). destruct (edge_eqb_spec (0, 3)%nat e) as [->|]; [exact He|discriminate Q].
    + intros X. apply (C43_direct_dependencies 30 1 registry_init ex43 ltac:(lia) eq_refl ltac:(lia) ex43_table _ _ _ E1) in X as (p & H).
      apply ex43_falls in H. destruct H as [(_ & X & _)|[(_ & X & _)|[(X & _)|(X & _)]]]; discriminate X.
  - exfalso. assert (X : is_ok (snd (build_table_deps_hs ex43 registry_init)) = true) by (vm_compute; reflexivity). rewrite E2 in X. discriminate X.
Qed.
Example C48_ex : table_of_rules registry_init ex43 /\
  match snd (build_table_deps_hs ex43 registry_init) with Ok d => map fst d | Err _ => [] end = [(0, 1); (0, 2); (0, 3); (1, 3); (2, 3)]%nat.
Proof. split; [apply ex43_table|vm_compute; reflexivity]. Qed.

Print Assumptions C43_direct_dependencies.
Print Assumptions C43_builds.
Print Assumptions C43_returns_refuted.
Print Assumptions C44_spaces_partition.
Print Assumptions C47_indirect_dependencies.
Print Assumptions C47_variants_agree.
Print Assumptions C47_direct_is_indirect.
Print Assumptions C48_headerspace_partial.
Print Assumptions C48_never_misses.
Print Assumptions C48_same_edges_refuted.
