(** Proofs about the bit interleaving functions. *)
From Verif Require Import Wildcard Spec WildcardProofs.
From Coq Require Import ZifyBool ZifyNat ZifyN.
Ltac Zify.zify_post_hook ::= Z.div_mod_to_equations.

Lemma interleaved_unique a b m m' : interleaved a b m -> interleaved a b m' -> m = m'.
Proof.
  intros [_ H] [_ H']. apply Z.bits_inj'. intros n Hn.
  destruct (H (n / 2) ltac:(lia)) as [He Ho], (H' (n / 2) ltac:(lia)) as [He' Ho'].
  assert (n = 2 * (n / 2) \/ n = 2 * (n / 2) + 1) as [E|E] by lia; rewrite E; congruence.
Qed.

Lemma testbit_small x w n : 0 <= x < 2 ^ w -> w <= n -> 0 <= w -> Z.testbit x n = false.
Proof.
  intros Hx Hn Hw. destruct (Z.eq_dec x 0) as [->|Hz]; [apply Z.bits_0|].
  apply Z.bits_above_log2; [lia|]. assert (Z.log2 x < w) by (apply Z.log2_lt_pow2; lia). lia.
Qed.

Lemma small_of_bits x w : 0 <= w -> 0 <= x -> (forall n, w <= n -> Z.testbit x n = false) -> x < 2 ^ w.
Proof.
  intros Hw Hx H. destruct (Z.eq_dec x 0) as [->|Hz]; [lia|].
  apply Z.log2_lt_pow2; [lia|]. destruct (Z_lt_ge_dec (Z.log2 x) w); [lia|].
  assert (Z.testbit x (Z.log2 x) = true) by (apply Z.bit_log2; lia).
  rewrite H in H0 by lia. discriminate.
Qed.

Lemma num_bits_bound x : 0 <= x -> 0 <= num_bits x /\ x < 2 ^ num_bits x.
Proof.
  intros Hx. unfold num_bits. destruct (Z.eqb_spec x 0) as [->|Hn]; [lia|].
  rewrite Z.abs_eq by lia. assert (0 <= Z.log2 x) by apply Z.log2_nonneg. split; [lia|].
  apply Z.log2_spec. lia.
Qed.

(** A word function that interleaves [w]-bit words. *)
Definition word_interleave (w : Z) (f : Z -> Z -> Z) : Prop :=
  forall x y, 0 <= x < 2 ^ w -> 0 <= y < 2 ^ w -> interleaved x y (f x y).

Lemma interleaved_bound w x y m : 0 <= w -> 0 <= x < 2 ^ w -> 0 <= y < 2 ^ w -> interleaved x y m -> m < 2 ^ (2 * w).
Proof.
  intros Hw Hx Hy [Hm H]. apply small_of_bits; [lia|lia|]. intros n Hn.
  destruct (H (n / 2) ltac:(lia)) as [He Ho].
  assert (n = 2 * (n / 2) \/ n = 2 * (n / 2) + 1) as [E|E] by lia; rewrite E; rewrite ?He, ?Ho;
    apply (testbit_small _ w); lia.
Qed.

Lemma land_ones_range x w : 0 <= w -> 0 <= Z.land x (Z.ones w) < 2 ^ w.
Proof. intros Hw. rewrite Z.land_ones by lia. apply Z.mod_pos_bound. lia. Qed.

Lemma words_interleave w f : 0 < w -> word_interleave w f ->
  forall k a b, 0 <= a < 2 ^ (w * Z.of_nat k) -> 0 <= b < 2 ^ (w * Z.of_nat k) ->
  interleaved a b (join_words (2 * w) (map (fun ab => f (fst ab) (snd ab))
        (combine (split_words w k a) (split_words w k b)))).
Proof.
  intros Hw Hf. induction k as [|k IH]; intros a b Ha Hb.
  - assert (a = 0) as -> by (rewrite Z.mul_0_r in Ha; lia).
    assert (b = 0) as -> by (rewrite Z.mul_0_r in Hb; lia). cbn.
    split; [lia|]. intros i Hi. rewrite !Z.bits_0. auto.
  - cbn [split_words combine map join_words fst snd].
    assert (Hpow : 2 ^ (w * Z.of_nat (S k)) = 2 ^ w * 2 ^ (w * Z.of_nat k)).
    { rewrite <- Z.pow_add_r by lia. f_equal. lia. }
    assert (Hsh : forall x, 0 <= x < 2 ^ (w * Z.of_nat (S k)) -> 0 <= Z.shiftr x w < 2 ^ (w * Z.of_nat k)).
    { intros x Hx. rewrite Z.shiftr_div_pow2 by lia.
      assert (0 < 2 ^ w) by lia. split; [apply Z.div_pos; lia|].
      apply Z.div_lt_upper_bound; lia. }
    specialize (IH (Z.shiftr a w) (Z.shiftr b w) (Hsh _ Ha) (Hsh _ Hb)).
    set (J := join_words _ _) in *.
    assert (HF := Hf (Z.land a (Z.ones w)) (Z.land b (Z.ones w))
                     (land_ones_range a w ltac:(lia)) (land_ones_range b w ltac:(lia))).
    assert (HFb := interleaved_bound w _ _ _ ltac:(lia)
                     (land_ones_range a w ltac:(lia)) (land_ones_range b w ltac:(lia)) HF).
    set (F := f _ _) in *. destruct IH as [IH0 IH]. destruct HF as [HF0 HF].
    split. { apply Z.lor_nonneg. split; [lia|]. apply Z.shiftl_nonneg. lia. }
    intros i Hi. rewrite !Z.lor_spec.
    destruct (Z_lt_ge_dec i w) as [Hl|Hg].
    + rewrite !Z.shiftl_spec_low by lia. rewrite !orb_false_r.
      destruct (HF i Hi) as [-> ->]. rewrite !Z.land_spec, !Z.ones_spec_low by lia.
      rewrite !andb_true_r. auto.
    + rewrite !(testbit_small F (2 * w)) by lia. cbn [orb].
      rewrite !Z.shiftl_spec by lia.
      replace (2 * i - 2 * w) with (2 * (i - w)) by lia.
      replace (2 * i + 1 - 2 * w) with (2 * (i - w) + 1) by lia.
      destruct (IH (i - w) ltac:(lia)) as [-> ->].
      rewrite !Z.shiftr_spec by lia. replace (i - w + w) with i by lia. auto.
Qed.

Lemma morton_words_ok w f : 0 < w -> word_interleave w f ->
  forall a b, 0 <= a -> 0 <= b -> exists m, morton_words w f a b = Ok m /\ interleaved a b m.
Proof.
  intros Hw Hf a b Ha Hb. unfold morton_words.
  destruct (Z.ltb_spec a 0); [lia|]. destruct (Z.ltb_spec b 0); [lia|]. cbn [orb].
  eexists. split; [reflexivity|].
  destruct (num_bits_bound a Ha) as [Ha1 Ha2], (num_bits_bound b Hb) as [Hb1 Hb2].
  set (n := Z.max (num_bits a) (num_bits b)).
  assert (Hn : n <= w * Z.of_nat (Z.to_nat (n / w + 1))).
  { rewrite Z2Nat.id by (assert (0 <= n / w) by (apply Z.div_pos; lia); lia).
    assert (H1 := Z.mul_succ_div_gt n w Hw). lia. }
  apply words_interleave; auto; split; auto.
  - apply Z.lt_le_trans with (2 ^ num_bits a); [auto|]. apply Z.pow_le_mono_r; lia.
  - apply Z.lt_le_trans with (2 ^ num_bits b); [auto|]. apply Z.pow_le_mono_r; lia.
Qed.

(** The lookup table, swept over its whole (finite) domain. *)
Definition tab_check (x : Z) : bool :=
  forallb (fun i => Bool.eqb (Z.testbit (morton_tab x) (2 * i)) (Z.testbit x i) &&
                    negb (Z.testbit (morton_tab x) (2 * i + 1))) (seqZ 8)
  && (0 <=? morton_tab x) && (morton_tab x <? 2 ^ 16).
Lemma tab_sweep : forallb tab_check (seqZ 256) = true.
Proof. vm_compute. reflexivity. Qed.

Lemma morton_tab_spec x : 0 <= x < 256 ->
  0 <= morton_tab x < 2 ^ 16 /\
  forall i, 0 <= i -> Z.testbit (morton_tab x) (2 * i) = Z.testbit x i /\
                      Z.testbit (morton_tab x) (2 * i + 1) = false.
Proof.
  intros Hx. assert (H := proj1 (forallb_seqZ 256 tab_check) tab_sweep x ltac:(lia)).
  unfold tab_check in H. apply andb_true_iff in H as [H H2]. apply andb_true_iff in H as [H H1].
  assert (Hb : 0 <= morton_tab x < 2 ^ 16) by lia. split; [exact Hb|].
  intros i Hi. destruct (Z_lt_ge_dec i 8) as [Hl|Hg].
  - rewrite forallb_seqZ in H. specialize (H i ltac:(lia)).
    apply andb_true_iff in H as [Ha Hc]. apply Bool.eqb_prop in Ha.
    split; [exact Ha|]. now apply negb_true_iff in Hc.
  - rewrite !(testbit_small (morton_tab x) 16) by lia. rewrite (testbit_small x 8) by (cbn; lia). auto.
Qed.

Lemma tab_pair_interleaved x y : 0 <= x < 256 -> 0 <= y < 256 ->
  interleaved x y (Z.lor (Z.shiftl (morton_tab y) 1) (morton_tab x)).
Proof.
  intros Hx Hy. destruct (morton_tab_spec x Hx) as [Bx Sx], (morton_tab_spec y Hy) as [By Sy].
  split. { apply Z.lor_nonneg. split; [apply Z.shiftl_nonneg|]; lia. }
  intros i Hi. rewrite !Z.lor_spec. destruct (Sx i Hi) as [-> ->]. split.
  - destruct (Z.eq_dec i 0) as [->|Hn]; [now rewrite Z.shiftl_spec_low by lia|].
    rewrite Z.shiftl_spec by lia. replace (2 * i - 1) with (2 * (i - 1) + 1) by lia.
    rewrite (proj2 (Sy (i - 1) ltac:(lia))). reflexivity.
  - rewrite Z.shiftl_spec by lia. replace (2 * i + 1 - 1) with (2 * i) by lia.
    rewrite (proj1 (Sy i Hi)). apply orb_false_r.
Qed.

Lemma land_255 x : Z.land x 255 = Z.land x (Z.ones 8). Proof. reflexivity. Qed.
Lemma land_255_small x : 0 <= x < 256 -> Z.land x 255 = x.
Proof. intros H. rewrite land_255, Z.land_ones by lia. apply Z.mod_small. exact H. Qed.

Lemma lut_word : word_interleave 8 (fun a b =>
    Z.lor (Z.shiftl (morton_tab (Z.land b 255)) 1) (morton_tab (Z.land a 255))).
Proof.
  intros x y Hx Hy. cbn beta. rewrite (land_255_small x), (land_255_small y) by assumption.
  now apply tab_pair_interleaved.
Qed.

(** PDEP with an alternating mask. *)
Lemma pdep_loop_even n : forall m k src mask, 0 <= m -> 0 <= k ->
  (forall j, m <= j < m + 2 * Z.of_nat n -> Z.testbit mask j = Z.even (j - m)) ->
  0 <= pdep_loop (2 * n) m k src mask /\
  forall j, 0 <= j -> Z.testbit (pdep_loop (2 * n) m k src mask) j =
    (m <=? j) && (j <? m + 2 * Z.of_nat n) && Z.even (j - m) && Z.testbit src (k + (j - m) / 2).
Proof.
  induction n as [|n IH]; intros m k src mask Hm Hk H.
  - change (2 * 0)%nat with 0%nat. cbn [pdep_loop]. split; [lia|]. intros j Hj. rewrite Z.bits_0.
    destruct (Z.leb_spec m j), (Z.ltb_spec j (m + 2 * Z.of_nat 0)); try reflexivity; lia.
  - replace (2 * S n)%nat with (S (S (2 * n)))%nat by lia. cbn [pdep_loop].
    rewrite (H m) by lia. replace (m - m) with 0 by lia. cbn [Z.even].
    rewrite (H (m + 1)) by lia. replace (m + 1 - m) with 1 by lia. cbn [Z.even].
    destruct (IH (m + 1 + 1) (k + 1) src mask ltac:(lia) ltac:(lia)) as [I0 I].
    { intros j Hj. rewrite H by lia. replace (j - m) with (2 * 1 + (j - (m + 1 + 1))) by lia.
      rewrite Z.add_comm, Z.even_add_mul_2. reflexivity. }
    split. { apply Z.lor_nonneg. split; [|exact I0].
             destruct (Z.testbit src k); [apply Z.shiftl_nonneg; lia|lia]. }
    intros j Hj. rewrite Z.lor_spec, I by lia.
    assert (Hone : Z.testbit (if Z.testbit src k then Z.shiftl 1 m else 0) j = (j =? m) && Z.testbit src k).
    { destruct (Z.testbit src k); [|rewrite Z.bits_0; now rewrite andb_false_r].
      rewrite andb_true_r. rewrite Z.shiftl_1_l. rewrite Z.pow2_bits_eqb by lia.
      apply Z.eqb_sym. }
    rewrite Hone. destruct (Z.eqb_spec j m) as [->|Hn].
    + replace (m - m) with 0 by lia. cbn [Z.even]. change (0 / 2) with 0. rewrite Z.add_0_r.
      replace (m + 1 + 1 <=? m) with false by lia. replace (m <=? m) with true by lia.
      replace (m <? m + 2 * Z.of_nat (S n)) with true by lia. cbn. now rewrite orb_false_r.
    + cbn [andb orb].
      destruct (Z.eq_dec j (m + 1)) as [->|Hn1].
      * replace (m + 1 - m) with 1 by lia. cbn [Z.even].
        replace (m + 1 + 1 <=? m + 1) with false by lia. cbn. now rewrite !andb_false_r.
      * replace (k + 1 + (j - (m + 1 + 1)) / 2) with (k + (j - m) / 2) by lia.
        replace (Z.even (j - (m + 1 + 1))) with (Z.even (j - m)).
        2:{ replace (j - m) with ((j - (m + 1 + 1)) + 2 * 1) by lia. apply Z.even_add_mul_2. }
        f_equal. f_equal. lia.
Qed.

Lemma pdep_loop_odd n : forall m k src mask, 0 <= m -> 0 <= k ->
  (forall j, m <= j < m + 2 * Z.of_nat n -> Z.testbit mask j = negb (Z.even (j - m))) ->
  0 <= pdep_loop (2 * n) m k src mask /\
  forall j, 0 <= j -> Z.testbit (pdep_loop (2 * n) m k src mask) j =
    (m <=? j) && (j <? m + 2 * Z.of_nat n) && negb (Z.even (j - m)) && Z.testbit src (k + (j - m) / 2).
Proof.
  induction n as [|n IH]; intros m k src mask Hm Hk H.
  - change (2 * 0)%nat with 0%nat. cbn [pdep_loop]. split; [lia|]. intros j Hj. rewrite Z.bits_0.
    destruct (Z.leb_spec m j), (Z.ltb_spec j (m + 2 * Z.of_nat 0)); try reflexivity; lia.
  - replace (2 * S n)%nat with (S (S (2 * n)))%nat by lia. cbn [pdep_loop].
    rewrite (H m) by lia. replace (m - m) with 0 by lia. cbn [Z.even negb].
    rewrite (H (m + 1)) by lia. replace (m + 1 - m) with 1 by lia. cbn [Z.even negb].
    destruct (IH (m + 1 + 1) (k + 1) src mask ltac:(lia) ltac:(lia)) as [I0 I].
    { intros j Hj. rewrite H by lia. replace (j - m) with (2 * 1 + (j - (m + 1 + 1))) by lia.
      rewrite Z.add_comm, Z.even_add_mul_2. reflexivity. }
    split. { apply Z.lor_nonneg. split; [|exact I0].
             destruct (Z.testbit src k); [apply Z.shiftl_nonneg; lia|lia]. }
    intros j Hj. rewrite Z.lor_spec, I by lia.
    assert (Hone : Z.testbit (if Z.testbit src k then Z.shiftl 1 (m + 1) else 0) j = (j =? m + 1) && Z.testbit src k).
    { destruct (Z.testbit src k); [|rewrite Z.bits_0; now rewrite andb_false_r].
      rewrite andb_true_r. rewrite Z.shiftl_1_l. rewrite Z.pow2_bits_eqb by lia.
      apply Z.eqb_sym. }
    rewrite Hone. destruct (Z.eqb_spec j (m + 1)) as [->|Hn].
    + replace (m + 1 - m) with 1 by lia. cbn [Z.even negb]. change (1 / 2) with 0. rewrite Z.add_0_r.
      replace (m + 1 + 1 <=? m + 1) with false by lia. replace (m <=? m + 1) with true by lia.
      replace (m + 1 <? m + 2 * Z.of_nat (S n)) with true by lia. cbn. now rewrite orb_false_r.
    + cbn [andb orb].
      destruct (Z.eq_dec j m) as [->|Hn1].
      * replace (m - m) with 0 by lia. cbn [Z.even].
        replace (m + 1 + 1 <=? m) with false by lia. cbn. now rewrite !andb_false_r.
      * replace (k + 1 + (j - (m + 1 + 1)) / 2) with (k + (j - m) / 2) by lia.
        replace (Z.even (j - (m + 1 + 1))) with (Z.even (j - m)).
        2:{ replace (j - m) with ((j - (m + 1 + 1)) + 2 * 1) by lia. apply Z.even_add_mul_2. }
        f_equal. f_equal. lia.
Qed.

Lemma pdep_pair_interleaved n em om x y :
  (forall j, 0 <= j < 2 * Z.of_nat n -> Z.testbit em j = Z.even j) ->
  (forall j, 0 <= j < 2 * Z.of_nat n -> Z.testbit om j = negb (Z.even j)) ->
  0 <= x < 2 ^ Z.of_nat n -> 0 <= y < 2 ^ Z.of_nat n ->
  interleaved x y (Z.lor (pdep (2 * n) x em) (pdep (2 * n) y om)).
Proof.
  intros He Ho Hx Hy. unfold pdep.
  destruct (pdep_loop_even n 0 0 x em ltac:(lia) ltac:(lia)) as [E0 E].
  { intros j Hj. rewrite He by lia. f_equal. lia. }
  destruct (pdep_loop_odd n 0 0 y om ltac:(lia) ltac:(lia)) as [O0 O].
  { intros j Hj. rewrite Ho by lia. f_equal. f_equal. lia. }
  split. { apply Z.lor_nonneg. auto. }
  intros i Hi. rewrite !Z.lor_spec, !E, !O by lia. rewrite !Z.sub_0_r, !Z.add_0_l, even_2i, even_2i1.
  replace (2 * i / 2) with i by lia. replace ((2 * i + 1) / 2) with i by lia.
  cbn [negb]. rewrite !andb_false_r, !andb_false_l, !andb_true_r, !orb_false_l, !orb_false_r.
  destruct (Z_lt_ge_dec i (Z.of_nat n)) as [Hl|Hg].
  - replace (0 <=? 2 * i) with true by lia. replace (0 <=? 2 * i + 1) with true by lia.
    replace (2 * i <? 2 * Z.of_nat n) with true by lia.
    replace (2 * i + 1 <? 2 * Z.of_nat n) with true by lia. split; reflexivity.
  - rewrite (testbit_small x (Z.of_nat n)), (testbit_small y (Z.of_nat n)) by lia.
    now rewrite !andb_false_r.
Qed.

Lemma alt_mask_sweep (n : nat) em (g : Z -> bool) :
  forallb (fun j => Bool.eqb (Z.testbit em j) (g j)) (seqZ n) = true ->
  forall j, 0 <= j < Z.of_nat n -> Z.testbit em j = g j.
Proof. intros H j Hj. rewrite forallb_seqZ in H. apply Bool.eqb_prop. auto. Qed.

Lemma pdep32_word : word_interleave 16 (fun a b => Z.lor (pdep 32 a 0x55555555) (pdep 32 b 0xAAAAAAAA)).
Proof.
  intros x y Hx Hy. apply (pdep_pair_interleaved 16); auto;
  apply (alt_mask_sweep 32); vm_compute; reflexivity.
Qed.
Lemma pdep64_word : word_interleave 32 (fun a b =>
    Z.lor (pdep 64 a 0x5555555555555555) (pdep 64 b 0xAAAAAAAAAAAAAAAA)).
Proof.
  intros x y Hx Hy. apply (pdep_pair_interleaved 32); auto;
  apply (alt_mask_sweep 64); vm_compute; reflexivity.
Qed.

(** The Python recursion. *)
Lemma lor_gt255 a b : 0 <= a -> 0 <= b -> (255 <? Z.lor a b) = false -> 0 <= a < 256 /\ 0 <= b < 256.
Proof.
  intros Ha Hb H. assert (0 <= Z.lor a b) by (now apply Z.lor_nonneg).
  assert (Hl : 0 <= Z.lor a b < 2 ^ 8) by (cbn; lia).
  assert (forall x, 0 <= x -> (forall n, 8 <= n -> Z.testbit x n = false) -> x < 2 ^ 8) as K.
  { intros. apply small_of_bits; auto; lia. }
  split; split; auto; apply K; auto; intros n Hn;
    assert (Z.testbit (Z.lor a b) n = false) as E by (apply (testbit_small _ 8); lia);
    rewrite Z.lor_spec in E; apply orb_false_iff in E; tauto.
Qed.

Lemma morton_py_fuel_ok fuel : forall a b, 0 <= a < 2 ^ (8 * Z.of_nat fuel) -> 0 <= b < 2 ^ (8 * Z.of_nat fuel) ->
  (0 < fuel)%nat ->
  exists m, morton_py_fuel fuel a b = Ok m /\ interleaved a b m.
Proof.
  induction fuel as [|fuel IH]; intros a b Ha Hb Hf; [lia|].
  cbn [morton_py_fuel]. rewrite !land_255.
  destruct (Z.ltb_spec 255 (Z.lor a b)) as [Hgt|Hle].
  - destruct fuel as [|fuel'].
    { exfalso. change (2 ^ (8 * Z.of_nat 1)) with 256 in *.
      assert (Z.lor a b < 2 ^ 8); [|change (2^8) with 256 in *; lia].
      apply small_of_bits; [lia|apply Z.lor_nonneg; lia|]. intros n Hn. rewrite Z.lor_spec.
      rewrite !(testbit_small _ 8) by (cbn; lia). reflexivity. }
    assert (Hpow : 2 ^ (8 * Z.of_nat (S (S fuel'))) = 2 ^ 8 * 2 ^ (8 * Z.of_nat (S fuel'))).
    { rewrite <- Z.pow_add_r by lia. f_equal. lia. }
    assert (Hsh : forall x, 0 <= x < 2 ^ (8 * Z.of_nat (S (S fuel'))) -> 0 <= Z.shiftr x 8 < 2 ^ (8 * Z.of_nat (S fuel'))).
    { intros x Hx. rewrite Z.shiftr_div_pow2 by lia. split; [apply Z.div_pos; lia|].
      apply Z.div_lt_upper_bound; lia. }
    destruct (IH (Z.shiftr a 8) (Z.shiftr b 8) (Hsh _ Ha) (Hsh _ Hb) ltac:(lia)) as [hi [-> Hhi]].
    cbn [rbind]. eexists. split; [reflexivity|].
    assert (Ra := land_ones_range a 8 ltac:(lia)). assert (Rb := land_ones_range b 8 ltac:(lia)).
    assert (HT := tab_pair_interleaved _ _ Ra Rb).
    assert (HTb := interleaved_bound 8 _ _ _ ltac:(lia) Ra Rb HT).
    set (T := Z.lor (Z.shiftl _ 1) _) in *. destruct HT as [T0 HT]. destruct Hhi as [h0 Hhi].
    split. { apply Z.lor_nonneg. split; [lia|]. apply Z.shiftl_nonneg. lia. }
    intros i Hi. rewrite !Z.lor_spec. destruct (Z_lt_ge_dec i 8) as [Hl|Hg].
    + rewrite !Z.shiftl_spec_low by lia. rewrite !orb_false_r. destruct (HT i Hi) as [-> ->].
      rewrite !Z.land_spec, !Z.ones_spec_low by lia. rewrite !andb_true_r. auto.
    + rewrite !(testbit_small T 16) by lia. cbn [orb]. rewrite !Z.shiftl_spec by lia.
      replace (2 * i - 16) with (2 * (i - 8)) by lia.
      replace (2 * i + 1 - 16) with (2 * (i - 8) + 1) by lia.
      destruct (Hhi (i - 8) ltac:(lia)) as [-> ->].
      rewrite !Z.shiftr_spec by lia. replace (i - 8 + 8) with i by lia. auto.
  - eexists. split; [reflexivity|].
    destruct (lor_gt255 a b) as [Ra Rb]; [lia|lia|lia|].
    rewrite <- !land_255, (land_255_small a), (land_255_small b) by assumption.
    now apply tab_pair_interleaved.
Qed.

Lemma morton_py_ok a b : 0 <= a -> 0 <= b ->
  exists m, morton_number_py a b = Ok m /\ interleaved a b m.
Proof.
  intros Ha Hb. unfold morton_number_py.
  destruct (num_bits_bound a Ha) as [Ha1 Ha2], (num_bits_bound b Hb) as [Hb1 Hb2].
  apply morton_py_fuel_ok; try lia; split; auto.
  - apply Z.lt_le_trans with (2 ^ num_bits a); [auto|]. apply Z.pow_le_mono_r; lia.
  - apply Z.lt_le_trans with (2 ^ num_bits b); [auto|]. apply Z.pow_le_mono_r; lia.
Qed.

Lemma morton_pdep64_ok a b : 0 <= a -> 0 <= b ->
  exists m, morton_number_pdep64 a b = Ok m /\ interleaved a b m.
Proof. apply morton_words_ok; [lia|exact pdep64_word]. Qed.
Lemma morton_pdep32_ok a b : 0 <= a -> 0 <= b ->
  exists m, morton_number_pdep32 a b = Ok m /\ interleaved a b m.
Proof. apply morton_words_ok; [lia|exact pdep32_word]. Qed.
Lemma morton_lut_ok a b : 0 <= a -> 0 <= b ->
  exists m, morton_number_lut a b = Ok m /\ interleaved a b m.
Proof. apply morton_words_ok; [lia|exact lut_word]. Qed.

Lemma morton_all_agree a b : 0 <= a -> 0 <= b ->
  exists m, interleaved a b m /\ morton_number_py a b = Ok m /\ morton_number_lut a b = Ok m /\
            morton_number_pdep32 a b = Ok m /\ morton_number_pdep64 a b = Ok m.
Proof.
  intros Ha Hb.
  destruct (morton_py_ok a b Ha Hb) as [m1 [E1 I1]], (morton_lut_ok a b Ha Hb) as [m2 [E2 I2]],
    (morton_pdep32_ok a b Ha Hb) as [m3 [E3 I3]], (morton_pdep64_ok a b Ha Hb) as [m4 [E4 I4]].
  exists m1. assert (m2 = m1) as -> by (eapply interleaved_unique; eauto).
  assert (m3 = m1) as -> by (eapply interleaved_unique; eauto).
  assert (m4 = m1) as -> by (eapply interleaved_unique; eauto). auto.
Qed.

(** *** RMorton *)
Definition rm_check (x : Z) : bool :=
  let '(a, b) := rmorton_entry x in
  forallb (fun i => Bool.eqb (Z.testbit a i) (Z.testbit x (2 * i)) &&
                    Bool.eqb (Z.testbit b i) (Z.testbit x (2 * i + 1))) (seqZ 8)
  && (0 <=? a) && (a <? 256) && (0 <=? b) && (b <? 256).

(** Sweep over 2^16 without building a list of that size in nat. *)
Fixpoint sweep (d : nat) (f : Z -> bool) (x : Z) : bool :=
  match d with
  | O => f x
  | S d' => sweep d' f (2 * x) && sweep d' f (2 * x + 1)
  end.
Lemma sweep_spec d f : forall x, sweep d f x = true ->
  forall y, x * 2 ^ Z.of_nat d <= y < (x + 1) * 2 ^ Z.of_nat d -> f y = true.
Proof.
  induction d as [|d IH]; intros x H y Hy; cbn [sweep] in H.
  - rewrite Z.pow_0_r in Hy. assert (y = x) as -> by lia. exact H.
  - apply andb_true_iff in H as [H1 H2].
    rewrite Nat2Z.inj_succ, Z.pow_succ_r in Hy by lia.
    destruct (Z_lt_ge_dec y ((2 * x + 1) * 2 ^ Z.of_nat d)).
    + apply (IH (2 * x)); [auto|]. lia.
    + apply (IH (2 * x + 1)); [auto|]. lia.
Qed.
Lemma rm_sweep : sweep 16 rm_check 0 = true.
Proof. vm_compute. reflexivity. Qed.

Lemma rmorton_entry_spec x : 0 <= x < 2 ^ 16 ->
  exists a b, rmorton_entry x = (a, b) /\ 0 <= a < 2 ^ 8 /\ 0 <= b < 2 ^ 8 /\
  forall i, 0 <= i -> Z.testbit a i = Z.testbit x (2 * i) /\ Z.testbit b i = Z.testbit x (2 * i + 1).
Proof.
  intros Hx. assert (H := sweep_spec 16 rm_check 0 rm_sweep x ltac:(cbn; cbn in Hx; lia)).
  unfold rm_check in H. destruct (rmorton_entry x) as [a b]. exists a, b. split; [reflexivity|].
  do 4 (apply andb_true_iff in H as [H ?]).
  assert (0 <= a < 2 ^ 8 /\ 0 <= b < 2 ^ 8) as [Ra Rb] by (cbn; lia). repeat split; try lia.
  - destruct (Z_lt_ge_dec i 8).
    + rewrite forallb_seqZ in H. specialize (H i ltac:(lia)). apply andb_true_iff in H as [H _].
      now apply Bool.eqb_prop.
    + rewrite (testbit_small a 8), (testbit_small x 16) by lia. reflexivity.
  - destruct (Z_lt_ge_dec i 8).
    + rewrite forallb_seqZ in H. specialize (H i ltac:(lia)). apply andb_true_iff in H as [_ H].
      now apply Bool.eqb_prop.
    + rewrite (testbit_small b 8), (testbit_small x 16) by lia. reflexivity.
Qed.

Lemma rmorton_fuel_ok fuel : forall num offset a b,
  0 <= num < 2 ^ (16 * Z.of_nat fuel) -> 0 <= offset ->
  0 <= a < 2 ^ offset -> 0 <= b < 2 ^ offset ->
  exists a' b', rmorton_fuel fuel num offset a b = Ok (a', b') /\ 0 <= a' /\ 0 <= b' /\
  forall i, 0 <= i ->
    Z.testbit a' i = (if i <? offset then Z.testbit a i else Z.testbit num (2 * (i - offset))) /\
    Z.testbit b' i = (if i <? offset then Z.testbit b i else Z.testbit num (2 * (i - offset) + 1)).
Proof.
  assert (Base : forall offset a b, 0 <= offset -> 0 <= a < 2 ^ offset -> 0 <= b < 2 ^ offset ->
     forall i, 0 <= i -> Z.testbit a i = (if i <? offset then Z.testbit a i else Z.testbit 0 (2 * (i - offset))) /\
    Z.testbit b i = (if i <? offset then Z.testbit b i else Z.testbit 0 (2 * (i - offset) + 1))).
  { intros offset a b Ho Ha Hb i Hi. destruct (Z.ltb_spec i offset); [auto|].
    rewrite !Z.bits_0, (testbit_small a offset), (testbit_small b offset) by lia. auto. }
  induction fuel as [|fuel IH]; intros num offset a b Hn Ho Ha Hb; cbn [rmorton_fuel].
  - rewrite Z.mul_0_r in Hn. assert (num = 0) as -> by lia. cbn [Z.eqb].
    exists a, b. repeat split; try lia; apply (Base offset a b Ho Ha Hb i H).
  - destruct (Z.eqb_spec num 0) as [->|Hnz].
    { exists a, b. repeat split; try lia; apply (Base offset a b Ho Ha Hb i H). }
    change 0xFFFF with (Z.ones 16).
    destruct (rmorton_entry_spec (Z.land num (Z.ones 16)) (land_ones_range num 16 ltac:(lia)))
      as [na [nb [-> [Rna [Rnb S]]]]].
    assert (Hpow : 2 ^ (16 * Z.of_nat (Datatypes.S fuel)) = 2 ^ 16 * 2 ^ (16 * Z.of_nat fuel)).
    { rewrite <- Z.pow_add_r by lia. f_equal. lia. }
    assert (Hsh : 0 <= Z.shiftr num 16 < 2 ^ (16 * Z.of_nat fuel)).
    { rewrite Z.shiftr_div_pow2 by lia. split; [apply Z.div_pos; lia|].
      apply Z.div_lt_upper_bound; lia. }
    assert (Hor : forall c nc, 0 <= c < 2 ^ offset -> 0 <= nc < 2 ^ 8 ->
              0 <= Z.lor c (Z.shiftl nc offset) < 2 ^ (offset + 8)).
    { intros c nc Hc Hnc. assert (0 <= Z.lor c (Z.shiftl nc offset)).
      { apply Z.lor_nonneg. split; [lia|]. apply Z.shiftl_nonneg. lia. }
      split; [auto|]. apply small_of_bits; [lia|auto|]. intros n Hn'. rewrite Z.lor_spec.
      rewrite (testbit_small c offset) by lia. rewrite Z.shiftl_spec by lia.
      rewrite (testbit_small nc 8) by lia. reflexivity. }
    destruct (IH (Z.shiftr num 16) (offset + 8) (Z.lor a (Z.shiftl na offset)) (Z.lor b (Z.shiftl nb offset))
               Hsh ltac:(lia) (Hor _ _ Ha Rna) (Hor _ _ Hb Rnb)) as [a' [b' [-> [A0 [B0 HI]]]]].
    exists a', b'. split; [reflexivity|]. split; [auto|]. split; [auto|].
    intros i Hi. destruct (HI i Hi) as [-> ->].
    destruct (Z.ltb_spec i offset) as [Hl|Hg].
    + replace (i <? offset + 8) with true by lia. rewrite !Z.lor_spec, !Z.shiftl_spec_low by lia.
      now rewrite !orb_false_r.
    + destruct (Z.ltb_spec i (offset + 8)) as [Hl8|Hg8].
      * rewrite !Z.lor_spec, (testbit_small a offset), (testbit_small b offset) by lia.
        rewrite !Z.shiftl_spec by lia. cbn [orb]. destruct (S (i - offset) ltac:(lia)) as [-> ->].
        rewrite !Z.land_spec, !Z.ones_spec_low by lia. now rewrite !andb_true_r.
      * rewrite !Z.shiftr_spec by lia. split; f_equal; lia.
Qed.

Lemma RMorton_ok num : 0 <= num ->
  exists a b, RMorton num = Ok (a, b) /\ 0 <= a /\ 0 <= b /\
  forall i, 0 <= i -> Z.testbit a i = Z.testbit num (2 * i) /\ Z.testbit b i = Z.testbit num (2 * i + 1).
Proof.
  intros Hn. unfold RMorton.
  destruct (num_bits_bound num Hn) as [H1 H2].
  destruct (rmorton_fuel_ok (Z.to_nat (num_bits num)) num 0 0 0) as [a [b [E [A [B H]]]]]; try lia.
  - split; [lia|]. apply Z.lt_le_trans with (2 ^ num_bits num); [auto|]. apply Z.pow_le_mono_r; lia.
  - exists a, b. repeat split; auto; destruct (H i H0) as [Hx Hy].
    + rewrite Hx. replace (i <? 0) with false by lia. f_equal. lia.
    + rewrite Hy. replace (i <? 0) with false by lia. f_equal. lia.
Qed.

(** RMorton inverts every version of morton_number. *)
Lemma RMorton_inverts a b m : 0 <= a -> 0 <= b -> interleaved a b m -> RMorton m = Ok (a, b).
Proof.
  intros Ha Hb [Hm H]. destruct (RMorton_ok m Hm) as [a' [b' [-> [Ha' [Hb' HR]]]]].
  do 2 f_equal; apply Z.bits_inj'; intros i Hi; destruct (HR i Hi), (H i Hi); congruence.
Qed.
