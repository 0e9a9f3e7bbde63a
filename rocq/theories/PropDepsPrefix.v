(** Theorems for C46: dependencies of a table of IPv4 prefixes. *)
From Coq Require Import Lia Permutation Sorted.
From Coq Require Import ZifyBool ZifyNat ZifyN.
From Verif Require Import SpecBdd WildcardProofs MatchProofs BddProofs CuddProofs BddApi SpecPipeline MergeProofs ActionProofs ActionSetProofs MatchWcProofs NormaliseProofs PropNormalise MiscProofs Deps SpecDeps DepsProofs DepsTable DepsAny DepsPrefixProofs PropDeps.
Local Open Scope string_scope.
Local Open Scope list_scope.
Local Open Scope Z_scope.
Local Opaque NB WC_FULLWC layout oxm_fields registry_init.

Definition matches_ok (r : registry) (rules : list rule) : Prop := forall R, In R rules -> match_ok r (rmatch (rcore R)).

(** ** The direct builder: one edge per prefix but the default, to the longest enclosing prefix,
    with all the packets of the prefix. *)
Theorem C46_direct : forall SHIFT one r rules P, 0 < SHIFT -> SHIFT mod 2 = 0 -> one <> 0 -> matches_ok r rules -> prefix_table rules P ->
  exists d, build_prefix_table_deps SHIFT one rules = Ok d /\ NoDup (map fst d) /\
    (forall i j, In (i, j) (map fst d) <-> longest P i j) /\
    (forall i j b R, In ((i, j), b) d -> nth_error rules i = Some R -> mask one b /\ forall p, adenote b p <> 0 <-> rule_accepts R p).
Proof.
  intros SHIFT one r rules P Hs Hs2 Ho Hok HP. destruct (bdd_runs r rules P Hok HP SHIFT one Hs Hs2 Ho) as (ns & Mn & F & E).
  eexists. split; [exact E|]. assert (K : map fst (map (fun n => (direct_edge rules (nid n, nrule n), nbdd n)) (tl ns)) = map (direct_edge rules) (tl (W rules))).
  { rewrite map_map. cbn [fst]. rewrite <- Mn. destruct ns as [|n ns]; [reflexivity|]. cbn [tl map]. now rewrite map_map. }
  rewrite K. split; [apply (direct_nodup rules)|]. split; [apply (direct_edges r rules P Hok HP)|].
  intros i j b R Hb HR. apply in_map_iff in Hb as (n & En & Hn). injection En as Ei Ej <-.
  assert (Hn' : In n ns) by (destruct ns; [destruct Hn|now right]). rewrite Forall_forall in F. destruct (F n Hn') as [M O]. split; [exact M|]. intros p.
  assert (HW : In (nid n, nrule n) (W rules)) by (rewrite <- Mn; now apply (in_map (fun n => (nid n, nrule n)))).
  apply (W_in rules), objects_in in HW. rewrite Ei in HW. rewrite HR in HW. injection HW as ->. apply O.
Qed.
(** the same with wildcards *)
Theorem C46_direct_wildcards : forall r rules P, matches_ok r rules -> prefix_table rules P ->
  exists d, build_prefix_table_deps_wc rules = Ok d /\ NoDup (map fst d) /\
    (forall i j, In (i, j) (map fst d) <-> longest P i j) /\
    (forall i j w R, In ((i, j), w) d -> nth_error rules i = Some R -> forall p, accepts w p <-> rule_accepts R p).
Proof.
  intros r rules P Hok HP. eexists. split; [apply (wc_runs r rules P Hok HP)|]. rewrite map_map. cbn [fst].
  assert (K : map (fun x => direct_edge rules x) (tl (W rules)) = map (direct_edge rules) (tl (W rules))) by (now apply map_ext).
  rewrite K. split; [apply (direct_nodup rules)|]. split; [apply (direct_edges r rules P Hok HP)|].
  intros i j w R Hb HR p. apply in_map_iff in Hb as ([i' R'] & En & Hn). injection En as -> Ej <-.
  assert (HW : In (i, R') (W rules)) by (destruct (W rules); [destruct Hn|now right]). destruct (W_wc r rules Hok _ HW) as (_ & _ & A).
  apply (W_in rules), objects_in in HW. rewrite HR in HW. injection HW as <-. apply A.
Qed.
(** ** The indirect builder: all enclosing prefixes *)
Theorem C46_indirect : forall r rules P, matches_ok r rules -> prefix_table rules P ->
  exists s, ind_prefix_table_deps rules = Ok s /\ NoDup s /\ forall i j, In (i, j) s <-> lies_in P i j.
Proof.
  intros r rules P Hok HP. eexists. split; [apply (all_runs r rules P Hok HP)|]. split.
  - assert (N := tail_nodup rules). assert (NW := W_nodup rules). assert (Na : forall x, NoDup (map fst (rev (anc onet olen (W rules) x)))).
    { intros x. rewrite map_rev. apply NoDup_rev. unfold anc. assert (Nr : NoDup (map fst (rev (W rules)))) by (rewrite map_rev; now apply NoDup_rev).
      revert Nr. generalize (rev (W rules)). clear. induction l as [|y l IH]; cbn [map filter]; intros N; [constructor|]. inversion N as [|? ? Ny N']; subst.
      destruct (encb onet olen x y); cbn [map]; [|auto]. constructor; [|auto]. intros X. apply Ny. apply in_map_iff in X as (z & E & Hz). apply filter_In in Hz as [Hz _]. rewrite <- E. now apply in_map. }
    revert N. generalize (tl (W rules)). induction l as [|x l IH]; cbn [map flat_map]; intros N; [constructor|]. inversion N as [|? ? Nx N']; subst.
    apply NoDup_app_fwd; [|auto|].
    + rewrite <- map_map with (f := fst) (g := fun c => (fst x, c)). apply FinFun.Injective_map_NoDup; [intros a b [= E]; exact E|apply Na].
    + intros e H1 H2. apply Nx. apply in_map_iff in H1 as (c & <- & _). apply in_flat_map in H2 as (y & Hy & H2). apply in_map_iff in H2 as (c' & E & _). injection E as E _. rewrite <- E. now apply in_map.
  - intros i j. rewrite in_flat_map. split.
    + intros ([i' R] & Hx & H). apply in_map_iff in H as (c & E & Hc). injection E as -> <-.
      assert (HW : In (i, R) (W rules)) by (destruct (W rules); [destruct Hx|now right]). apply (W_in rules), objects_in in HW.
      apply (anc_inside rules P HP i _ R HW). exists c. split; [now apply in_rev|reflexivity].
    + intros L. destruct L as (n & l & n' & l' & E1 & E2 & En). destruct (nth_rule rules P HP i n l E1) as (R & HR & _).
      assert (L : lies_in P i j) by (do 4 eexists; eauto). exists (i, R). split; [eapply W_root_alone; eauto|].
      apply (anc_inside rules P HP i j R HR) in L as (c & Hc & <-). apply (in_map (fun c => (i, fst c))). now apply in_rev; rewrite rev_involutive.
Qed.

(** ** Agreement with the general builders *)
Lemma lower_meets rules P i j R S0 p : prefix_table rules P -> nth_error rules i = Some R -> nth_error rules j = Some S0 ->
  priority (rcore S0) < priority (rcore R) -> rule_accepts R p -> rule_accepts S0 p -> lies_in P i j.
Proof.
  intros HP HR HS Lt AR AS. destruct (nth_prefix rules P HP i R HR) as [Pi Ri], (nth_prefix rules P HP j S0 HS) as [Pj Rj].
  assert (M : meet (dnet R) (priority (rcore R)) (dnet S0) (priority (rcore S0))) by (apply prefix_meet; eauto).
  do 4 eexists. split; [exact Pi|]. split; [exact Pj|]. split; [exact Lt|]. unfold meet in M. rewrite Z.min_r in M by lia. exact M.
Qed.
Lemma prefix_falls rules P i j p : prefix_table rules P -> one_table rules ->
  (falls rules i j p <-> longest P i j /\ exists R, nth_error rules i = Some R /\ rule_accepts R p).
Proof.
  intros HP HT. split.
  - intros (R & S0 & HR & HS & _ & Lt & AR & AS & Mx). split; [|eauto]. split; [eapply lower_meets; eauto|].
    intros k m a b (n & l & n' & l' & E1 & E2 & En) Em Ej. rewrite Em in E2. injection E2 as ->. cbn [snd].
    destruct (nth_rule rules P HP i n l E1) as (R' & HR' & <- & <- & Ri). rewrite HR in HR'. injection HR' as <-.
    destruct (nth_rule rules P HP k n' l' Em) as (T & HTk & <- & <- & Rk). destruct (nth_prefix rules P HP j S0 HS) as [Pj _]. rewrite Pj in Ej. injection Ej as <- <-.
    assert (AT : rule_accepts T p) by (apply (prefix_inside R T); auto).
    destruct (Mx k T HTk) as [X|[X _]]; [apply HT; eapply nth_error_In; eauto|apply En|auto|lia|lia].
  - intros ((I & Mx) & R & HR & AR). assert (I' := I). destruct I' as (n & l & n' & l' & E1 & E2 & En).
    destruct (nth_rule rules P HP i n l E1) as (R' & HR' & <- & <- & Ri). rewrite HR in HR'. injection HR' as <-.
    destruct (nth_rule rules P HP j n' l' E2) as (S0 & HS & <- & <- & Rj). exists R, S0. split; [auto|]. split; [auto|].
    split; [apply HT; eapply nth_error_In; eauto|]. split; [apply En|]. split; [auto|]. split; [apply (prefix_inside R S0); auto|].
    intros k T HTk _ Lt AT. assert (Ik := lower_meets rules P i k R T p HP HR HTk Lt AR AT).
    destruct (nth_prefix rules P HP k T HTk) as [Pk Rk]. assert (Le := Mx k _ _ _ Ik Pk E2). cbn [snd] in Le.
    destruct (Z.eq_dec (priority (rcore T)) (priority (rcore S0))) as [Q|Q]; [right|left; lia]. split; [auto|].
    assert (k = j); [|lia]. destruct HP as (_ & ND & _). rewrite NoDup_nth_error in ND. apply ND; [apply nth_error_Some; congruence|]. rewrite Pk, E2. f_equal.
    assert (Sk : encloses (dnet T) (priority (rcore T)) (dnet R) (priority (rcore R))).
    { destruct Ik as (a & b & a' & b' & X1 & X2 & X3). rewrite E1 in X1. injection X1 as <- <-. rewrite Pk in X2. injection X2 as <- <-. exact X3. }
    destruct Sk as (_ & Sk), En as (_ & En). rewrite Q in *. f_equal.
    assert (Gk := good_mult _ _ (isp_good T Rk) (32 - priority (rcore S0)) ltac:(destruct (isp_good T Rk) as (? & _); lia)).
    assert (Gj := good_mult _ _ (isp_good S0 Rj) (32 - priority (rcore S0)) ltac:(destruct (isp_good S0 Rj) as (? & _); lia)). rewrite Gk, Gj. congruence.
Qed.
Theorem C46_same_as_general : forall SHIFT one r rules P, 0 < SHIFT -> SHIFT mod 2 = 0 -> one <> 0 -> table_of_rules r rules -> prefix_table rules P ->
  exists d s, build_prefix_table_deps SHIFT one rules = Ok d /\ ind_prefix_table_deps rules = Ok s /\
    (forall reg reg' d', build_table_deps SHIFT one rules reg = (reg', Ok d') -> Permutation d d') /\
    (forall reg reg' s', ind_table_deps (objects rules) reg = (reg', Ok s') -> Permutation s s').
Proof.
  intros SHIFT one r rules P Hs Hs2 Ho Ht HP. destruct Ht as (Hne & Hok & HT). assert (Ht : table_of_rules r rules) by (split; auto).
  destruct (C46_direct SHIFT one r rules P Hs Hs2 Ho Hok HP) as (d & E & ND & K & V). destruct (C46_indirect r rules P Hok HP) as (s & Es & Ns & Ks).
  exists d, s. split; [exact E|]. split; [exact Es|]. split.
  - intros reg reg' d' E'. destruct (table_deps_gives SHIFT one Hs Hs2 Ho r _ (table_of_plain r rules Ht) _ _ _ E') as (ND' & A' & B').
    assert (F := fun i j p => falls_objects rules i j p HT).
    assert (A : forall i j b, In ((i, j), b) d -> mask one b /\ forall p, on b p <-> falls rules i j p).
    { intros i j b H. assert (L : longest P i j). { apply K. apply (in_map fst) in H. exact H. }
      assert (L' := L). destruct L' as ((n & l & n' & l' & E1 & _) & _). destruct (nth_rule rules P HP i n l E1) as (R & HR & _).
      destruct (V i j b R H HR) as [M O]. split; [exact M|]. intros p. rewrite (prefix_falls rules P i j p HP HT), (O p). split; [eauto|].
      intros (_ & R' & HR' & AR). rewrite HR in HR'. injection HR' as <-. exact AR. }
    apply NoDup_Permutation; [eapply NoDup_map_inv; eauto|eapply NoDup_map_inv; eauto|]. intros [[i j] b]. split; intros H.
    + destruct (A i j b H) as [M O]. assert (L : longest P i j) by (apply K; apply (in_map fst) in H; exact H).
      assert (X : exists p, falls rules i j p).
      { assert (L' := L). destruct L' as ((n & l & n' & l' & E1 & _) & _). destruct (nth_rule rules P HP i n l E1) as (R & HR & _ & _ & Ri).
        destruct (proj2 (prefix_meet R R Ri Ri) eq_refl) as (p & AR & _). exists p. apply (prefix_falls rules P i j p HP HT). eauto. }
      destruct X as (p & Hp). destruct (B' i j p) as (b' & Hb'); [now apply F|]. destruct (A' i j b' Hb') as (M' & _ & O').
      assert (Eb : b = b'); [|rewrite Eb; exact Hb']. apply (mask_ext one Ho b b' M M'). intros q. rewrite O, O'. symmetry. apply F.
    + destruct (A' i j b H) as (M & (p & Hp) & O). assert (L : longest P i j). { apply O, F in Hp. now apply (prefix_falls rules P i j p HP HT) in Hp. }
      apply K in L. apply in_map_iff in L as ([e b'] & Ee & H'). cbn [fst] in Ee. subst e. destruct (A i j b' H') as [M' O'].
      assert (Eb : b = b'); [|rewrite Eb; exact H']. apply (mask_ext one Ho b b' M M'). intros q. rewrite O, O'. apply F.
  - intros reg reg' s' E'. destruct (C47_indirect_dependencies SHIFT one r rules Hs Hs2 Ho Ht) as [C _]. destruct (C _ _ _ E') as [N' K'].
    apply NoDup_Permutation; auto. intros [i j]. rewrite Ks, K'. split.
    + intros (n & l & n' & l' & E1 & E2 & En). destruct (nth_rule rules P HP i n l E1) as (R & HR & <- & <- & Ri). destruct (nth_rule rules P HP j n' l' E2) as (S0 & HS & <- & <- & Rj).
      destruct (proj2 (prefix_meet R R Ri Ri) eq_refl) as (p & AR & _). exists p, R, S0. split; [auto|]. split; [auto|]. split; [apply HT; eapply nth_error_In; eauto|].
      split; [apply En|]. split; [auto|]. apply (prefix_inside R S0); auto.
    + intros (p & R & S0 & HR & HS & _ & Lt & AR & AS). eapply lower_meets; eauto.
Qed.

(** A default rule with an empty match, as in every other table, is a KeyError. *)
Theorem C46_empty_default_refuted : exists rules, table_of_rules registry_init rules /\
  (exists D, nth_error rules 0 = Some D /\ match_all D /\ priority (rcore D) = 0) /\
  build_prefix_table_deps 30 1 rules = Err KeyError /\ ind_prefix_table_deps rules = Err KeyError.
Proof.
  exists [mk_rule 0 0 [] []; mk_rule 8 0 [("IPV4_DST", (0x0a000000, Some 0xff000000))] [OUTPUT 1]]. split.
  - split; [discriminate|]. split; [intros R [<-|[<-|[]]]; now apply mk_match_ok|]. intros R S0 [<-|[<-|[]]] [<-|[<-|[]]]; reflexivity.
  - split; [eexists; split; [reflexivity|]; split; [intros p it []|reflexivity]|]. split; vm_compute; reflexivity.
Qed.

(** Example: 10.1.0.0/16, the default, 10.0.0.0/8, 10.1.2.3/32 and 192.168.0.0/16. *)
Definition ex46 : list rule :=
  [mk_rule 16 0 [("IPV4_DST", (0x0a010000, Some 0xffff0000))] [OUTPUT 1]; mk_rule 0 0 [("IPV4_DST", (0, Some 0))] [OUTPUT 2];
   mk_rule 8 0 [("IPV4_DST", (0x0a000000, Some 0xff000000))] [OUTPUT 3]; mk_rule 32 0 [("IPV4_DST", (0x0a010203, None))] [OUTPUT 4];
   mk_rule 16 0 [("IPV4_DST", (0xc0a80000, Some 0xffff0000))] [OUTPUT 5]].
Definition ex46_prefixes : list (Z * Z) := [(0x0a010000, 16); (0, 0); (0x0a000000, 8); (0x0a010203, 32); (0xc0a80000, 16)].
Example C46_ex : matches_ok registry_init ex46 /\ prefix_table ex46 ex46_prefixes /\
  longest ex46_prefixes 3 0 /\ lies_in ex46_prefixes 3 2 /\
  match build_prefix_table_deps_wc ex46 with Ok d => map fst d | Err _ => [] end = [(2, 1); (0, 2); (3, 0); (4, 1)]%nat /\
  match ind_prefix_table_deps ex46 with Ok s => s | Err _ => [] end = [(2, 1); (0, 1); (0, 2); (3, 1); (3, 2); (3, 0); (4, 1)]%nat.
Proof.
  split; [intros R [<-|[<-|[<-|[<-|[<-|[]]]]]]; now apply mk_match_ok|]. split.
  - split.
    + repeat constructor; cbn [fst snd]; try lia; try reflexivity; (eexists; split; [vm_compute; reflexivity|]); ((right; reflexivity) || (left; split; reflexivity)).
    + split; [|right; now left]. repeat constructor; cbn [In]; intros X; repeat (destruct X as [X|X]; [discriminate X|]); exact X.
  - assert (I : lies_in ex46_prefixes 3 0) by (do 4 eexists; split; [reflexivity|]; split; [reflexivity|]; split; [lia|reflexivity]).
    split; [split; [exact I|]|split; [do 4 eexists; split; [reflexivity|]; split; [reflexivity|]; split; [lia|reflexivity]|split; vm_compute; reflexivity]].
    intros k m a b (n & l & n' & l' & E1 & E2 & (Lt & _)) Em Ej. injection E1 as <- <-. injection Ej as <- <-.
    destruct k as [|[|[|[|[|k]]]]]; try (destruct k; discriminate Em); injection Em as <-; cbn [snd]; try lia. injection E2 as <- <-. lia.
Qed.

Print Assumptions C46_direct.
Print Assumptions C46_direct_wildcards.
Print Assumptions C46_indirect.
Print Assumptions C46_same_as_general.
Print Assumptions C46_empty_default_refuted.
