(** Proofs about the report of differences of the headerspace normaliser. *)
From Coq Require Import Permutation ZifyBool ZifyNat.
From Verif Require Import HspaceDiff SpecHspaceDiff SpecHspace Spec WildcardProofs TreeProofs HspaceProofs HspaceMerge NormaliseProofs.
Local Open Scope list_scope.
Local Open Scope Z_scope.
Local Opaque NB.

Lemma shas_iff {V} (d : sdict V) k : shas d k = true <-> exists v, sget d k = Some v.
Proof. unfold shas. destruct (sget d k); split; [eauto|auto|discriminate|intros (v & H); discriminate]. Qed.
Lemma filter_nil {X} (f : X -> bool) l : filter f l = [] <-> forall x, In x l -> f x = false.
Proof.
  split.
  - intros H x Hx. destruct (f x) eqn:E; [|reflexivity]. assert (In x (filter f l)) by (apply filter_In; auto). rewrite H in H0. destruct H0.
  - induction l as [|x l IH]; intros H; cbn [filter]; [reflexivity|]. rewrite (H x (or_introl eq_refl)). apply IH. intros y Hy. apply H. now right.
Qed.

Section Diff.
  Context (ords ordf : list Z -> list Z) (Hords : forall l x, In x (ords l) <-> In x l) (Hordf : forall l, Permutation (ordf l) l).
  Notation V := po_value.

  (** the two tables after deletion of the empty cell *)
  Lemma diff_ok R1 R2 F1 F2 L1 L2 : all_wc F1 -> all_wc F2 -> NoDup F1 -> NoDup F2 -> (forall w, In w (map fst L1) <-> In w F1) -> (forall w, In w (map fst L2) <-> In w F2) ->
    normform R1 F1 L1 -> normform R2 F2 L2 -> L1 <> [] -> L2 <> [] ->
    let F := map fst L1 ++ map fst L2 in
    match hs_check_diff ords ordf (R1, F1) (R2, F2) with
    | Ok (b, diff) =>
      hs_check_equal ords ordf (R1, F1) (R2, F2) = Ok b /\
      (forall s, ~ dead (pos s F) (neg s F) -> (first_of s L1 = None <-> first_of s L2 = None)) /\
      (forall k, In k diff -> szero k = false /\ exists s, cell k [] [] s F /\ first_of s L1 <> first_of s L2) /\
      (forall s, ~ dead (pos s F) (neg s F) -> first_of s L1 <> first_of s L2 -> exists k, In k diff /\ szero k = false /\ cell k [] [] s F)
    | Err e => e = AssertionError /\ exists s, ~ dead (pos s F) (neg s F) /\ ~ (first_of s L1 = None <-> first_of s L2 = None)
    end.
  Proof.
    intros WF1 WF2 ND1 ND2 HL1 HL2 N1 N2 NL1 NL2 F. unfold hs_check_diff, hs_check_equal. cbn [fst snd].
    assert (MW : forall a b, all_wc a -> all_wc (zminus a b)) by (intros a b W w Hw; apply W; exact (proj1 (proj1 (zminus_in _ _ _) Hw))).
    assert (MN : forall a b, NoDup a -> NoDup (zminus a b)) by (intros a b; apply NoDup_filter).
    destruct (normform_more ords ordf Hords Hordf R1 F1 L1 (zminus F2 F1)) as (W1 & E1 & M1); auto.
    { intros w Hw N. apply (proj1 (zminus_in _ _ _)) in N. tauto. } { intros w. apply HL1. }
    destruct (normform_more ords ordf Hords Hordf R2 F2 L2 (zminus F1 F2)) as (W2 & E2 & M2); auto.
    { intros w Hw N. apply (proj1 (zminus_in _ _ _)) in N. tauto. } { intros w. apply HL2. }
    rewrite E1, E2. cbn [rbind].
    assert (EF1 : forall w, In w (F1 ++ zminus F2 F1) <-> In w F).
    { intros w. unfold F. rewrite !in_app_iff, zminus_in, HL1, HL2. split; [tauto|]. intros [H|H]; [now left|]. destruct (zin w F1) eqn:Q; [apply zin_in in Q|apply zin_not in Q]; auto. }
    assert (EF2 : forall w, In w (F2 ++ zminus F1 F2) <-> In w F).
    { intros w. unfold F. rewrite !in_app_iff, zminus_in, HL1, HL2. split; [tauto|]. intros [H|H]; [|now left]. destruct (zin w F2) eqn:Q; [apply zin_in in Q|apply zin_not in Q]; auto. }
    apply (normform_ext _ _ _ _ EF1) in M1. apply (normform_ext _ _ _ _ EF2) in M2.
    destruct (del_zero W1 _ L1 M1 NL1) as (V1 & D1 & DV1 & K1). destruct (del_zero W2 _ L2 M2 NL2) as (V2 & D2 & DV2 & K2). rewrite D1, D2. cbn [rbind].
    destruct M1 as (DW1 & G1 & C1 & _). destruct M2 as (DW2 & G2 & C2 & _).
    pose proof (fun k Z => del_get W1 V1 k DW1 DV1 K1 Z) as S1. pose proof (fun k Z => del_get W2 V2 k DW2 DV2 K2 Z) as S2.
    assert (WF : all_wc F) by (intros w Hw; unfold F in Hw; apply in_app_iff in Hw; destruct Hw as [Hw|Hw]; [apply WF1, HL1, Hw|apply WF2, HL2, Hw]).
    assert (T1 : forall k s, szero k = false -> cell k [] [] s F -> sget V1 k = first_of s L1) by (intros k s Z C; rewrite (S1 k Z); auto).
    assert (T2 : forall k s, szero k = false -> cell k [] [] s F -> sget V2 k = first_of s L2) by (intros k s Z C; rewrite (S2 k Z); auto).
    assert (KEY : forall s, ~ dead (pos s F) (neg s F) -> first_of s L1 <> None \/ first_of s L2 <> None -> exists k, szero k = false /\ cell k [] [] s F).
    { intros s NL Q. destruct (cell_exists ords Hords F s WF) as (k & Hk).
      - destruct Q as [Q|Q].
        + destruct (first_of s L1) as [x|] eqn:E; [|congruence]. apply (first_of_pos s L1 x E). intros w Hw. unfold F. apply in_app_iff. auto.
        + destruct (first_of s L2) as [x|] eqn:E; [|congruence]. apply (first_of_pos s L2 x E). intros w Hw. unfold F. apply in_app_iff. auto.
      - exists k. split; [|exact Hk]. now apply (rep_live _ _ _ Hk). }
    assert (IN1 : forall k, In k (map fst V1) -> szero k = false /\ exists s, cell k [] [] s F /\ first_of s L1 <> None).
    { intros k Hk. apply in_fst in Hk. destruct Hk as (v & Hk). pose proof (sget_in _ _ _ DV1 Hk) as Q. apply K1 in Hk. destruct Hk as [Hk Z]. split; [exact Z|].
      destruct (C1 k v Hk Z) as (s & Hs). exists s. split; [exact Hs|]. rewrite <- (T1 k s Z Hs), Q. discriminate. }
    assert (IN2 : forall k, In k (map fst V2) -> szero k = false /\ exists s, cell k [] [] s F /\ first_of s L2 <> None).
    { intros k Hk. apply in_fst in Hk. destruct Hk as (v & Hk). pose proof (sget_in _ _ _ DV2 Hk) as Q. apply K2 in Hk. destruct Hk as [Hk Z]. split; [exact Z|].
      destruct (C2 k v Hk Z) as (s & Hs). exists s. split; [exact Hs|]. rewrite <- (T2 k s Z Hs), Q. discriminate. }
    assert (LV : forall k s, szero k = false -> cell k [] [] s F -> ~ dead (pos s F) (neg s F)) by (intros k s Z C; exact (proj1 (rep_live _ _ _ C) Z)).
    set (new_only := filter (fun k => negb (shas V2 k)) (map fst V1)). set (missing_only := filter (fun k => negb (shas V1 k)) (map fst V2)).
    assert (BAD1 : new_only <> [] -> exists s, ~ dead (pos s F) (neg s F) /\ ~ (first_of s L1 = None <-> first_of s L2 = None)).
    { intros Q. destruct new_only as [|k l] eqn:E; [congruence|]. assert (Hk : In k new_only) by (rewrite E; now left). apply filter_In in Hk. destruct Hk as [Hk N].
      destruct (IN1 k Hk) as (Z & s & Hs & X). exists s. split; [eauto|]. rewrite <- (T2 k s Z Hs). unfold shas in N. destruct (sget V2 k); [discriminate|]. tauto. }
    assert (BAD2 : missing_only <> [] -> exists s, ~ dead (pos s F) (neg s F) /\ ~ (first_of s L1 = None <-> first_of s L2 = None)).
    { intros Q. destruct missing_only as [|k l] eqn:E; [congruence|]. assert (Hk : In k missing_only) by (rewrite E; now left). apply filter_In in Hk. destruct Hk as [Hk N].
      destruct (IN2 k Hk) as (Z & s & Hs & X). exists s. split; [eauto|]. rewrite <- (T1 k s Z Hs). unfold shas in N. destruct (sget V1 k); [discriminate|]. tauto. }
    destruct new_only as [|k0 l0] eqn:EN; [|split; [reflexivity|apply BAD1; discriminate]].
    destruct missing_only as [|k0 l0] eqn:EM; [|split; [reflexivity|apply BAD2; discriminate]].
    assert (SUB1 : forall k, In k (map fst V1) -> shas V2 k = true).
    { intros k Hk. pose proof (proj1 (filter_nil _ _) EN k Hk) as Q. cbn beta in Q. now apply negb_false_iff in Q. }
    assert (SUB2 : forall k, In k (map fst V2) -> shas V1 k = true).
    { intros k Hk. pose proof (proj1 (filter_nil _ _) EM k Hk) as Q. cbn beta in Q. now apply negb_false_iff in Q. }
    split; [reflexivity|]. split; [|split].
    - intros s NL. split; intros Q.
      + destruct (first_of s L2) as [x|] eqn:E; [|reflexivity]. destruct (KEY s NL) as (k & Z & Hk); [right; congruence|].
        pose proof (T2 k s Z Hk) as A. rewrite E in A. destruct (sget_some _ _ _ A) as (k' & Hk' & Qk). assert (H := SUB2 k' (proj2 (in_fst _ _) (ex_intro _ x Hk'))).
        apply shas_iff in H. destruct H as (v & H). rewrite (sget_eq V1 k' k Qk), (T1 k s Z Hk) in H. congruence.
      + destruct (first_of s L1) as [x|] eqn:E; [|reflexivity]. destruct (KEY s NL) as (k & Z & Hk); [left; congruence|].
        pose proof (T1 k s Z Hk) as A. rewrite E in A. destruct (sget_some _ _ _ A) as (k' & Hk' & Qk). assert (H := SUB1 k' (proj2 (in_fst _ _) (ex_intro _ x Hk'))).
        apply shas_iff in H. destruct H as (v & H). rewrite (sget_eq V2 k' k Qk), (T2 k s Z Hk) in H. congruence.
    - intros k Hk. apply filter_In in Hk. destruct Hk as [Hk Q]. apply filter_In in Hk. destruct Hk as [Hk _].
      destruct (IN1 k Hk) as (Z & s & Hs & X). split; [exact Z|]. exists s. split; [exact Hs|]. rewrite (T1 k s Z Hs), (T2 k s Z Hs) in Q.
      destruct (first_of s L1) as [a|], (first_of s L2) as [b|]; try discriminate. destruct (po_eq_dec a b); [discriminate|congruence].
    - intros s NL ND. destruct (KEY s NL) as (k & Z & Hk).
      { destruct (first_of s L1), (first_of s L2); try (left; congruence); right; congruence. }
      assert (A1 : exists x k', first_of s L1 = Some x /\ In (k', x) V1 /\ shim_eqb k' k = true).
      { destruct (first_of s L1) as [x|] eqn:E.
        - pose proof (T1 k s Z Hk) as A. rewrite E in A. destruct (sget_some _ _ _ A) as (k' & Hk' & Qk). eauto.
        - destruct (first_of s L2) as [x|] eqn:E'; [|congruence]. pose proof (T2 k s Z Hk) as A. rewrite E' in A. destruct (sget_some _ _ _ A) as (k' & Hk' & Qk).
          assert (H := SUB2 k' (proj2 (in_fst _ _) (ex_intro _ x Hk'))). apply shas_iff in H. destruct H as (v & H). rewrite (sget_eq V1 k' k Qk), (T1 k s Z Hk), E in H. discriminate. }
      destruct A1 as (x & k' & E & Hk' & Qk). assert (Z' : szero k' = false) by (now rewrite (shim_eqb_zero _ _ Qk)).
      assert (C' : cell k' [] [] s F) by (exact (rep_eq _ _ _ _ (shim_eqb_sym _ _ Qk) Hk)).
      assert (Hin : In k' (map fst V1)) by (apply in_fst; eauto).
      exists k'. split; [|auto]. apply filter_In. split; [apply filter_In; auto|]. rewrite (T1 k' s Z' C'), (T2 k' s Z' C'), E.
      pose proof (SUB1 k' Hin) as H. apply shas_iff in H. destruct H as (v & H). rewrite (T2 k' s Z' C') in H. rewrite H.
      destruct (po_eq_dec x v); [|reflexivity]. congruence.
  Qed.
End Diff.

(** ** What a cell contains *)
Lemma in_cell_iff k s F p : szero k = false -> cell k [] [] s F -> (in_cell k p <-> forall w, In w F -> acceptsb w p = s w).
Proof.
  intros Z [[Z' _]|(_ & NL & i & Ei & Wi & Ai & M1 & M2 & M3)]; [congruence|]. cbn [app] in *. split.
  - intros (_ & w & Ew & Aw & Nx) x Hx. rewrite Ei in Ew. injection Ew as <-. destruct (s x) eqn:E.
    + apply acceptsb_spec. apply (proj1 (Ai p) Aw). apply pos_in. auto.
    + destruct (acceptsb x p) eqn:A; [|reflexivity]. apply acceptsb_spec in A. destruct (M2 x) as (y & Hy & S); [apply neg_in; auto|]. elim (Nx y Hy). now apply S.
  - intros H. split; [exact Z|]. exists i. split; [exact Ei|]. split.
    + apply Ai. intros w Hw. apply pos_in in Hw. apply acceptsb_spec. rewrite H; tauto.
    + intros x Hx A. apply M1, neg_in in Hx. apply acceptsb_spec in A. rewrite H in A; [|tauto]. destruct Hx. congruence.
Qed.
Lemma cell_inc k s F : szero k = false -> cell k [] [] s F -> exists i, sinc k = Some i /\ wc_ok i /\ (forall p, accepts i p <-> accepts_all (pos s F) p).
Proof. intros Z [[Z' _]|(_ & NL & i & Ei & Wi & Ai & _)]; [congruence|]. eauto. Qed.

(** ** _collect_paths and find_conflicting_paths *)
Lemma matches_iff i w : wc_ok i -> (i =? wildcard_intersect i w) = true <-> sub i w.
Proof.
  intros Wi. rewrite Z.eqb_eq. split.
  - intros E p Hp. rewrite E in Hp. now apply wildcard_intersect_accepts in Hp.
  - intros S. destruct (zfree_nonempty i (proj2 Wi)) as (p & Hp).
    assert (N : wildcard_intersect i w <> 0) by (intros N; apply wildcard_intersect_zero in N; apply N; exists p; auto).
    apply wc_canonical; [exact Wi|apply wildcard_intersect_ok; [apply Wi|exact N]|]. intros q. rewrite wildcard_intersect_accepts. split; [auto|tauto].
Qed.
(** [r] takes all of the include [i] *)
Definition takes (i : Z) (r : rule) : Prop := exists w, rule_wc r = Ok w /\ sub i w.
Lemma hs_collect_ok i h rules : wc_ok i -> sinc h = Some i -> (forall r, In r rules -> exists w, rule_wc r = Ok w) ->
  exists l, hs_collect h rules = Ok l /\ (forall P h', In (P, h') l -> sinc h' = Some i) /\
    forall P, In P (map fst l) <-> exists r, In r rules /\ path r = P /\ takes i r.
Proof.
  intros Wi Ei. unfold hs_collect.
  assert (G : forall rules acc, (forall r, In r rules -> exists w, rule_wc r = Ok w) -> (forall P h', In (P, h') acc -> sinc h' = Some i) ->
    exists l, rfold (fun collected r => do wc <- rule_wc r; do m <- shim_matches h wc; if m : bool then do j <- shim_intersection h wc; Ok (collected ++ [(path r, j)]) else Ok collected) rules acc = Ok l /\
      (forall P h', In (P, h') l -> sinc h' = Some i) /\
      forall P, In P (map fst l) <-> In P (map fst acc) \/ exists r, In r rules /\ path r = P /\ takes i r).
  { clear rules. induction rules as [|r rules IH]; intros acc RW HA; cbn [rfold].
    - exists acc. split; [reflexivity|]. split; [exact HA|]. intros P. split; [auto|]. intros [H|(r & [] & _)]. exact H.
    - destruct (RW r (or_introl eq_refl)) as (w & Ew). rewrite Ew. cbn [rbind].
      assert (M1 : shim_matches h w = Ok (i =? wildcard_intersect i w)) by (unfold shim_matches; now rewrite Ei).
      assert (M2 : shim_intersection h w = Ok (mkShim (szero h) (Some (wildcard_intersect i w)) (sexc h))) by (unfold shim_intersection; now rewrite Ei).
      rewrite M1, M2. cbn [rbind].
      pose proof (matches_iff i w Wi) as MI. destruct (i =? wildcard_intersect i w) eqn:EI; cbn [rbind].
      + destruct (IH (acc ++ [(path r, mkShim (szero h) (Some (wildcard_intersect i w)) (sexc h))])) as (l & El & Hl & HP).
        * intros r' Hr. apply RW. now right.
        * intros P h' Hin. apply in_app_iff in Hin. destruct Hin as [Hin|[Q|[]]]; [eauto|]. injection Q as <- <-. cbn [sinc]. apply Z.eqb_eq in EI. now rewrite <- EI.
        * exists l. split; [exact El|]. split; [exact Hl|]. intros P. rewrite HP, map_app, in_app_iff. cbn [map fst In]. split.
          -- intros [[H|[H|[]]]|(r' & Hr & HP' & Ht)]; [auto| |right; eauto 6]. right. exists r. split; [auto|]. split; [auto|]. exists w. split; [auto|]. now apply MI.
          -- intros [H|(r' & [<-|Hr] & HP' & Ht)]; [auto|auto|right; eauto 6].
      + destruct (IH acc) as (l & El & Hl & HP); [intros r' Hr; apply RW; now right|exact HA|].
        exists l. split; [exact El|]. split; [exact Hl|]. intros P. rewrite HP. split.
        * intros [H|(r' & Hr & HP' & Ht)]; [auto|]. right. exists r'. split; [now right|auto].
        * intros [H|(r' & [<-|Hr] & HP' & Ht)]; [auto| |right; eauto]. exfalso. destruct Ht as (w' & Ew' & S). rewrite Ew in Ew'. injection Ew' as <-. apply MI in S. discriminate. }
  intros RW. destruct (G rules [] RW) as (l & El & Hl & HP); [intros P h' []|]. exists l. split; [exact El|]. split; [exact Hl|]. intros P. rewrite HP. cbn [map In]. tauto.
Qed.

Lemma join_has d k v : exists P' Qs, In (P', Qs) (pd_join d k v) /\ same_path P' k /\ incl v Qs.
Proof.
  induction d as [|[k' v'] d IH]; cbn [pd_join].
  - exists k, v. split; [now left|]. split; [now left|]. apply incl_refl.
  - destruct (path_eqb k' k) eqn:E.
    + exists k', (v' ++ v). split; [now left|]. split; [now right|]. apply incl_appr, incl_refl.
    + destruct IH as (P' & Qs & H & S & I). exists P', Qs. split; [now right|]. auto.
Qed.
Lemma join_keeps d k v P Q : related d P Q -> related (pd_join d k v) P Q.
Proof.
  induction d as [|[k' v'] d IH]; intros (P' & Qs & H & S & I); [destruct H|]. cbn [pd_join]. destruct H as [H|H].
  - injection H as -> ->. destruct (path_eqb P' k); [exists P', (Qs ++ v)|exists P', Qs]; (split; [now left|]); (split; [exact S|]); [|exact I]. apply in_app_iff. auto.
  - destruct (path_eqb k' k); [exists P', Qs; split; [now right|auto]|].
    destruct IH as (P2 & Q2 & H2 & S2 & I2); [exists P', Qs; auto|]. exists P2, Q2. split; [now right|]. auto.
Qed.
Lemma join_from d k v P' Qs Q : In (P', Qs) (pd_join d k v) -> In Q Qs -> (exists Qs', In (P', Qs') d /\ In Q Qs') \/ same_path P' k /\ In Q v.
Proof.
  induction d as [|[k' v'] d IH]; cbn [pd_join].
  - intros [H|[]] I. injection H as <- <-. right. split; [now left|exact I].
  - destruct (path_eqb k' k) eqn:E; intros [H|H] I.
    + injection H as <- <-. apply in_app_iff in I. destruct I as [I|I]; [left; exists v'; split; [now left|exact I]|right; split; [now right|exact I]].
    + left. exists Qs. split; [now right|exact I].
    + injection H as <- <-. left. exists v'. split; [now left|exact I].
    + destruct (IH H I) as [(Qs' & H' & I')|X]; [left; exists Qs'; split; [now right|exact I']|now right].
Qed.

Lemma hs_conflicts_ok diff orig new : (forall h, In h diff -> exists i, sinc h = Some i /\ wc_ok i) ->
  (forall r, In r (orig ++ new) -> exists w, rule_wc r = Ok w) ->
  exists res, hs_conflicts diff orig new = Ok res /\
    (forall h i r1 r2, In h diff -> sinc h = Some i -> In r1 orig -> In r2 new -> takes i r1 -> takes i r2 -> related res (path r1) (path r2)) /\
    (forall P Qs Q, In (P, Qs) res -> In Q Qs -> exists h i r1 r2, In h diff /\ sinc h = Some i /\ In r1 orig /\ In r2 new /\ takes i r1 /\ takes i r2 /\ same_path P (path r1) /\ Q = path r2).
Proof.
  intros HD HW. unfold hs_conflicts.
  assert (W1 : forall r, In r (sort_ruleset orig) -> exists w, rule_wc r = Ok w) by (intros r Hr; apply HW, in_app_iff; left; exact (Permutation_in _ (sort_perm _) Hr)).
  assert (W2 : forall r, In r (sort_ruleset new) -> exists w, rule_wc r = Ok w) by (intros r Hr; apply HW, in_app_iff; right; exact (Permutation_in _ (sort_perm _) Hr)).
  assert (I1 : forall r, In r orig -> In r (sort_ruleset orig)) by (intros r; apply Permutation_in; symmetry; apply sort_perm).
  assert (I2 : forall r, In r new -> In r (sort_ruleset new)) by (intros r; apply Permutation_in; symmetry; apply sort_perm).
  assert (J1 : forall r, In r (sort_ruleset orig) -> In r orig) by (intros r; apply Permutation_in, sort_perm).
  assert (J2 : forall r, In r (sort_ruleset new) -> In r new) by (intros r; apply Permutation_in, sort_perm).
  set (so := sort_ruleset orig) in *. set (sn := sort_ruleset new) in *.
  (* one cell *)
  assert (IN : forall i, wc_ok i -> forall ops r0, (forall P h', In (P, h') ops -> sinc h' = Some i) ->
    exists res, rfold (fun r oh => do new_paths <- hs_collect (snd oh) sn; Ok (pd_join r (fst oh) (map fst new_paths))) ops r0 = Ok res /\
      (forall P Q, related r0 P Q -> related res P Q) /\
      (forall P r2, In P (map fst ops) -> In r2 new -> takes i r2 -> related res P (path r2)) /\
      (forall P Qs Q, In (P, Qs) res -> In Q Qs -> (exists Qs', In (P, Qs') r0 /\ In Q Qs') \/ exists P' r2, In P' (map fst ops) /\ In r2 new /\ takes i r2 /\ same_path P P' /\ Q = path r2)).
  { intros i Wi. induction ops as [|[P h'] ops IH]; intros r0 Hh; cbn [rfold].
    - exists r0. split; [reflexivity|]. split; [auto|]. split; [intros P r2 []|]. intros P Qs Q H I. left. eauto.
    - destruct (hs_collect_ok i h' sn Wi (Hh P h' (or_introl eq_refl)) W2) as (nps & En & _ & HN). cbn [fst snd]. rewrite En. cbn [rbind].
      destruct (IH (pd_join r0 P (map fst nps))) as (res & Er & K1 & K2 & K3); [intros P0 h0 H0; apply (Hh P0 h0); now right|].
      exists res. split; [exact Er|]. split; [intros P0 Q H; apply K1, join_keeps, H|]. split.
      + intros P0 r2 [<-|H0] Hr Ht; [|now apply K2]. apply K1. destruct (join_has r0 P (map fst nps)) as (P' & Qs & H & S & I). exists P', Qs. split; [exact H|]. split; [exact S|].
        apply I, HN. eauto.
      + intros P0 Qs Q H I. destruct (K3 P0 Qs Q H I) as [(Qs' & H' & I')|(P' & r2 & X & Y)].
        * destruct (join_from _ _ _ _ _ _ H' I') as [X|[S X]]; [now left|]. right. apply HN in X. destruct X as (r2 & Hr & <- & Ht). exists P, r2. split; [now left|]. auto.
        * right. exists P', r2. split; [now right|exact Y]. }
  (* all cells *)
  assert (OUT : forall diff r0, (forall h, In h diff -> exists i, sinc h = Some i /\ wc_ok i) ->
    exists res, rfold (fun r h => do orig_paths <- hs_collect h so; rfold (fun r oh => do new_paths <- hs_collect (snd oh) sn; Ok (pd_join r (fst oh) (map fst new_paths))) orig_paths r) diff r0 = Ok res /\
      (forall P Q, related r0 P Q -> related res P Q) /\
      (forall h i r1 r2, In h diff -> sinc h = Some i -> In r1 orig -> In r2 new -> takes i r1 -> takes i r2 -> related res (path r1) (path r2)) /\
      (forall P Qs Q, In (P, Qs) res -> In Q Qs -> (exists Qs', In (P, Qs') r0 /\ In Q Qs') \/
        exists h i r1 r2, In h diff /\ sinc h = Some i /\ In r1 orig /\ In r2 new /\ takes i r1 /\ takes i r2 /\ same_path P (path r1) /\ Q = path r2)).
  { clear diff HD. induction diff as [|h diff IH]; intros r0 HD; cbn [rfold].
    - exists r0. split; [reflexivity|]. split; [auto|]. split; [intros h i r1 r2 []|]. intros P Qs Q H I. left. eauto.
    - destruct (HD h (or_introl eq_refl)) as (i & Ei & Wi). destruct (hs_collect_ok i h so Wi Ei W1) as (ops & Eo & HO & HP). rewrite Eo. cbn [rbind].
      destruct (IN i Wi ops r0 HO) as (r1 & Er & A1 & A2 & A3). rewrite Er. cbn [rbind].
      destruct (IH r1) as (res & Eres & B1 & B2 & B3); [intros h' Hh'; apply HD; now right|].
      exists res. split; [exact Eres|]. split; [auto|]. split.
      + intros h' i' x y [<-|Hh'] Ei' Hx Hy Tx Ty; [|eapply B2; eauto]. rewrite Ei in Ei'. injection Ei' as <-. apply B1, A2; auto. apply HP. exists x. auto.
      + intros P Qs Q H I. destruct (B3 P Qs Q H I) as [(Qs' & H' & I')|(h' & i' & x & y & X & Y)].
        * destruct (A3 P Qs' Q H' I') as [X|(P' & y & HP' & Hy & Ty & S & ->)]; [now left|]. right. apply HP in HP'. destruct HP' as (x & Hx & <- & Tx). exists h, i, x, y. split; [now left|]. auto 8.
        * right. exists h', i', x, y. split; [now right|exact Y]. }
  destruct (OUT diff [] HD) as (res & E & _ & B & C). exists res. split; [exact E|]. split; [exact B|].
  intros P Qs Q H I. destruct (C P Qs Q H I) as [(Qs' & [] & _)|X]. exact X.
Qed.
