(** Proofs about ternary wildcards. *)
From Verif Require Import Wildcard Spec.
From Coq Require Import ZifyBool ZifyNat ZifyN.
Ltac Zify.zify_post_hook ::= Z.div_mod_to_equations.
Local Opaque NB.

Lemma NB_pos : 0 < NB. Proof. rewrite NB_val. lia. Qed.

Lemma acceptsb_spec w p : acceptsb w p = true <-> accepts w p.
Proof.
  unfold acceptsb, accepts. rewrite forallb_seqZ.
  assert (H := NB_pos). rewrite Z2Nat.id by lia. tauto.
Qed.

(** *** Bits *)
Lemma odd_mask_testbit k i : 0 <= i ->
  Z.testbit (odd_mask k) i = (i <? 2 * Z.of_nat k) && Z.even i.
Proof.
  revert i. induction k as [|k IH]; intros i Hi; cbn [odd_mask].
  - rewrite Z.bits_0. destruct (Z.ltb_spec i (2 * Z.of_nat 0)); simpl; lia.
  - rewrite Z.lor_spec.
    destruct (Z.ltb_spec i 2) as [H2|H2].
    + rewrite Z.shiftl_spec_low by lia.
      assert (i = 0 \/ i = 1) as [-> | ->] by lia.
      * cbn. lia.
      * cbn. lia.
    + rewrite Z.shiftl_spec by lia. rewrite IH by lia.
      replace (Z.testbit 1 i) with false.
      2:{ symmetry. rewrite Z.bits_above_log2; cbn; lia. }
      rewrite orb_false_r.
      replace (Z.even (i - 2)) with (Z.even i).
      2:{ rewrite Z.even_sub. cbn. destruct (Z.even i); reflexivity. }
      f_equal. lia.
Qed.

Lemma odd_mask_nonneg k : 0 <= odd_mask k.
Proof.
  induction k as [|k IH]; cbn [odd_mask]; [lia|].
  apply Z.lor_nonneg. split; [apply Z.shiftl_nonneg; lia|lia].
Qed.

Lemma ODD_MASK_testbit i : 0 <= i -> Z.testbit ODD_MASK i = (i <? 2 * NB) && Z.even i.
Proof.
  intros Hi. unfold ODD_MASK. rewrite odd_mask_testbit by lia.
  assert (H := NB_pos). rewrite Z2Nat.id by lia. reflexivity.
Qed.

Lemma even_2i i : Z.even (2 * i) = true.
Proof. rewrite Z.even_mul. reflexivity. Qed.
Lemma even_2i1 i : Z.even (2 * i + 1) = false.
Proof. rewrite Z.add_comm, Z.even_add_mul_2. reflexivity. Qed.

(** Zero iff no bit set *)
Lemma Z_zero_bits z : z = 0 <-> forall i, 0 <= i -> Z.testbit z i = false.
Proof.
  split; [intros ->; intros; apply Z.bits_0|].
  intros H. apply Z.bits_inj'. intros n Hn. rewrite Z.bits_0. auto.
Qed.

Lemma Z_bits_eqb_dec (f : Z -> bool) n :
  (forall i, 0 <= i < n -> f i = false) \/ (exists i, 0 <= i < n /\ f i = true).
Proof.
  destruct (Z_le_gt_dec n 0) as [Hn|Hn]; [left; intros; lia|].
  destruct (existsb f (seqZ (Z.to_nat n))) eqn:E.
  - right. apply existsb_exists in E as [x [Hx Hf]]. apply in_seqZ in Hx.
    exists x. split; [lia|auto].
  - left. intros i Hi. destruct (f i) eqn:Hf; [|reflexivity].
    assert (existsb f (seqZ (Z.to_nat n)) = true); [|congruence].
    apply existsb_exists. exists i. split; auto. apply in_seqZ. lia.
Qed.

(** The test in wildcard_intersect detects exactly a z position. *)
Lemma z_test ret :
  Z.eqb (Z.land (Z.land (Z.lnot ret) (Z.shiftr (Z.lnot ret) 1)) ODD_MASK) 0 = true
  <-> zfree ret.
Proof.
  rewrite Z.eqb_eq, Z_zero_bits. unfold zfree. split; intros H i Hi.
  - specialize (H (2 * i) ltac:(lia)).
    rewrite !Z.land_spec, Z.shiftr_spec, !Z.lnot_spec, ODD_MASK_testbit, even_2i in H by lia.
    destruct (Z.testbit ret (2 * i)); [auto|].
    destruct (Z.testbit ret (2 * i + 1)); [auto|].
    exfalso. replace (2 * i <? 2 * NB) with true in H by lia. discriminate H.
  - rewrite !Z.land_spec, Z.shiftr_spec, !Z.lnot_spec, ODD_MASK_testbit by lia.
    destruct (Z.ltb_spec i (2 * NB)) as [Hl|Hl]; [|rewrite andb_false_r; reflexivity].
    destruct (Z.even i) eqn:Ev; [|rewrite andb_false_r; reflexivity].
    apply Z.even_spec in Ev as [k ->].
    destruct (H k ltac:(lia)) as [-> | ->]; cbn; rewrite ?andb_false_r; reflexivity.
Qed.

Lemma wildcard_intersect_cases a b :
  (zfree (Z.land a b) /\ wildcard_intersect a b = Z.land a b) \/
  (~ zfree (Z.land a b) /\ wildcard_intersect a b = 0).
Proof.
  unfold wildcard_intersect.
  destruct (Z.eqb (Z.land (Z.land (Z.lnot (Z.land a b)) (Z.shiftr (Z.lnot (Z.land a b)) 1)) ODD_MASK) 0) eqn:E.
  - left. split; [apply z_test, E|reflexivity].
  - right. split; [|reflexivity]. intros H. apply z_test in H. congruence.
Qed.

Lemma accepts_land a b p : accepts (Z.land a b) p <-> accepts a p /\ accepts b p.
Proof.
  unfold accepts. split.
  - intros H. split; intros i Hi; specialize (H i Hi); rewrite Z.land_spec in H;
    apply andb_true_iff in H; tauto.
  - intros [Ha Hb] i Hi. rewrite Z.land_spec, Ha, Hb by lia. reflexivity.
Qed.

Lemma accepts_zfree w p : accepts w p -> zfree w.
Proof.
  intros H i Hi. specialize (H i Hi). destruct (p i).
  - right. exact H.
  - left. rewrite Z.add_0_r in H. exact H.
Qed.

Lemma accepts_0 p : ~ accepts 0 p.
Proof.
  intros H. assert (HN := NB_pos). specialize (H 0 ltac:(lia)). rewrite Z.bits_0 in H. discriminate.
Qed.

Lemma zfree_nonempty w : zfree w -> exists p, accepts w p.
Proof.
  intros H. exists (fun i => Z.testbit w (2 * i + 1)). intros i Hi.
  destruct (Z.testbit w (2 * i + 1)) eqn:E; [exact E|].
  rewrite Z.add_0_r. destruct (H i Hi); congruence.
Qed.

Lemma zfree_nonzero w : zfree w -> w <> 0.
Proof. intros H ->. destruct (zfree_nonempty 0 H) as [p Hp]. now apply accepts_0 in Hp. Qed.

Lemma wildcard_intersect_accepts a b p :
  accepts (wildcard_intersect a b) p <-> accepts a p /\ accepts b p.
Proof.
  destruct (wildcard_intersect_cases a b) as [[Hz ->]|[Hz ->]].
  - apply accepts_land.
  - split; [intros H; now apply accepts_0 in H|].
    intros H. exfalso. apply Hz. apply accepts_zfree with p. now apply accepts_land.
Qed.

Lemma wildcard_intersect_zero a b :
  wildcard_intersect a b = 0 <-> ~ exists p, accepts a p /\ accepts b p.
Proof.
  destruct (wildcard_intersect_cases a b) as [[Hz HE]|[Hz HE]]; rewrite HE.
  - split.
    + intros H0. exfalso. now apply zfree_nonzero in Hz.
    + intros Hn. exfalso. apply Hn. destruct (zfree_nonempty _ Hz) as [p Hp].
      exists p. now apply accepts_land.
  - split; [|reflexivity]. intros _ [p Hp]. apply Hz. apply accepts_zfree with p.
    now apply accepts_land.
Qed.

Lemma wc_range_bits w : 0 <= w -> (wc_range w <-> forall i, 2 * NB <= i -> Z.testbit w i = false).
Proof.
  intros Hw. assert (HN := NB_pos). unfold wc_range. split.
  - intros H i Hi. destruct (Z.eq_dec w 0) as [->|Hn]; [apply Z.bits_0|].
    apply Z.bits_above_log2; [lia|].
    assert (Z.log2 w < 2 * NB); [apply Z.log2_lt_pow2; lia|lia].
  - intros H. split; [lia|]. destruct (Z.eq_dec w 0) as [->|Hn]; [lia|].
    apply Z.log2_lt_pow2; [lia|]. destruct (Z_lt_ge_dec (Z.log2 w) (2 * NB)) as [?|Hge]; [lia|].
    exfalso. assert (Z.testbit w (Z.log2 w) = true) by (apply Z.bit_log2; lia).
    rewrite H in H0 by lia. discriminate.
Qed.

Lemma wc_range_land a b : wc_range a -> wc_range (Z.land a b) .
Proof.
  intros Ha. assert (0 <= Z.land a b) by (apply Z.land_nonneg; left; apply Ha).
  apply wc_range_bits; [lia|]. intros i Hi. rewrite Z.land_spec.
  rewrite (proj1 (wc_range_bits a ltac:(apply Ha)) Ha) by lia. reflexivity.
Qed.

Lemma wildcard_intersect_ok a b :
  wc_range a -> wildcard_intersect a b <> 0 -> wc_ok (wildcard_intersect a b).
Proof.
  intros Ha Hn. destruct (wildcard_intersect_cases a b) as [[Hz HE]|[Hz HE]]; rewrite HE in *; [|congruence].
  split; auto. now apply wc_range_land.
Qed.

(** For each tbit value allowed by a z-free wildcard there is an accepted packet with it. *)
Lemma zfree_pick w i (v : bool) :
  zfree w -> 0 <= i < NB -> Z.testbit w (2 * i + (if v then 1 else 0)) = true ->
  exists p, accepts w p /\ p i = v.
Proof.
  intros Hz Hi Hb.
  exists (fun j => if j =? i then v else Z.testbit w (2 * j + 1)). split.
  - intros j Hj. destruct (Z.eqb_spec j i) as [->|Hne]; [exact Hb|].
    destruct (Z.testbit w (2 * j + 1)) eqn:E; [exact E|].
    rewrite Z.add_0_r. destruct (Hz j Hj); congruence.
  - rewrite Z.eqb_refl. reflexivity.
Qed.

Lemma bit_split b : 0 <= b < 2 * NB ->
  exists i (v : bool), 0 <= i < NB /\ b = 2 * i + (if v then 1 else 0).
Proof.
  intros Hb. exists (b / 2), (b mod 2 =? 1). split; [lia|].
  destruct (Z.eqb_spec (b mod 2) 1); lia.
Qed.

Lemma subset_spec a b :
  wc_ok a -> (wildcard_is_subset a b = true <-> forall p, accepts a p -> accepts b p).
Proof.
  intros [Hr Hz]. unfold wildcard_is_subset. rewrite Z.eqb_eq, Z_zero_bits. split.
  - intros H p Hp i Hi. specialize (H (2 * i + (if p i then 1 else 0)) ltac:(destruct (p i); lia)).
    rewrite Z.land_spec, Z.lnot_spec, Hp in H by (destruct (p i); lia).
    destruct (Z.testbit b _); [reflexivity|discriminate H].
  - intros H b0 Hb0. rewrite Z.land_spec, Z.lnot_spec by lia.
    destruct (Z_lt_ge_dec b0 (2 * NB)) as [Hl|Hg].
    + destruct (bit_split b0 ltac:(lia)) as [i [v [Hi ->]]].
      destruct (Z.testbit a _) eqn:Ea; [|reflexivity].
      destruct (zfree_pick a i v Hz Hi Ea) as [p [Hp Hv]].
      specialize (H p Hp i Hi). rewrite Hv in H. rewrite H. reflexivity.
    + rewrite (proj1 (wc_range_bits a ltac:(apply Hr)) Hr) by lia. reflexivity.
Qed.

Lemma accepts_lor_l a b p : accepts a p -> accepts (wildcard_union_cover a b) p.
Proof. intros H i Hi. unfold wildcard_union_cover. rewrite Z.lor_spec, H by lia. reflexivity. Qed.
Lemma accepts_lor_r a b p : accepts b p -> accepts (wildcard_union_cover a b) p.
Proof.
  intros H i Hi. unfold wildcard_union_cover. rewrite Z.lor_spec, H by lia.
  apply orb_true_r.
Qed.

Lemma union_cover_ok a b : wc_ok a -> wc_ok b -> wc_ok (wildcard_union_cover a b).
Proof.
  intros [Ra Za] [Rb Zb]. unfold wildcard_union_cover. split.
  - assert (0 <= Z.lor a b) by (apply Z.lor_nonneg; split; [apply Ra|apply Rb]).
    apply wc_range_bits; [lia|]. intros i Hi. rewrite Z.lor_spec.
    rewrite (proj1 (wc_range_bits a ltac:(apply Ra)) Ra),
            (proj1 (wc_range_bits b ltac:(apply Rb)) Rb) by lia. reflexivity.
  - intros i Hi. rewrite !Z.lor_spec. destruct (Za i Hi) as [-> | ->]; auto.
Qed.

Lemma union_cover_least a b c :
  wc_ok a -> wc_ok b ->
  (forall p, accepts a p -> accepts c p) -> (forall p, accepts b p -> accepts c p) ->
  forall p, accepts (wildcard_union_cover a b) p -> accepts c p.
Proof.
  intros [_ Za] [_ Zb] Ha Hb p Hp i Hi. specialize (Hp i Hi).
  unfold wildcard_union_cover in Hp. rewrite Z.lor_spec in Hp.
  apply orb_true_iff in Hp as [H|H].
  - destruct (zfree_pick a i (p i) Za Hi H) as [q [Hq <-]]. apply Ha; auto.
  - destruct (zfree_pick b i (p i) Zb Hi H) as [q [Hq <-]]. apply Hb; auto.
Qed.

Lemma wc_canonical a b :
  wc_ok a -> wc_ok b -> (forall p, accepts a p <-> accepts b p) -> a = b.
Proof.
  intros [Ra Za] [Rb Zb] H. apply Z.bits_inj'. intros n Hn.
  destruct (Z_lt_ge_dec n (2 * NB)) as [Hl|Hg].
  - destruct (bit_split n ltac:(lia)) as [i [v [Hi ->]]].
    destruct (Z.testbit a _) eqn:Ea.
    + destruct (zfree_pick a i v Za Hi Ea) as [p [Hp <-]]. symmetry. apply H; auto.
    + destruct (Z.testbit b _) eqn:Eb; [|reflexivity].
      destruct (zfree_pick b i v Zb Hi Eb) as [p [Hp Hv]].
      apply H in Hp. specialize (Hp i Hi). rewrite Hv in Hp. congruence.
  - rewrite (proj1 (wc_range_bits a ltac:(apply Ra)) Ra),
            (proj1 (wc_range_bits b ltac:(apply Rb)) Rb) by lia. reflexivity.
Qed.

(** Executable check of [wc_ok], for examples. *)
Definition wc_okb (w : Z) : bool :=
  (0 <=? w) && (w <? 2 ^ (2 * NB)) &&
  forallb (fun i => Z.testbit w (2 * i) || Z.testbit w (2 * i + 1)) (seqZ (Z.to_nat NB)).
Lemma wc_okb_ok w : wc_okb w = true -> wc_ok w.
Proof.
  unfold wc_okb. intros H. apply andb_true_iff in H as [H H2]. apply andb_true_iff in H as [H0 H1].
  rewrite forallb_forall in H2. apply Z.ltb_lt in H1. apply Z.leb_le in H0. split; [now split|].
  intros i Hi. apply orb_true_iff, H2. apply in_seqZ. rewrite Z2Nat.id; [exact Hi|]. apply Z.lt_le_incl, NB_pos.
Qed.
