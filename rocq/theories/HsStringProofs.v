(** Proofs about HsString.v, and the specification of the text of a wildcard. *)
From Coq Require Import Lia ZifyBool ZifyNat.
From Verif Require Export HsString Spec.
From Verif Require Import WildcardProofs MatchWcProofs.
Local Open Scope string_scope.
Local Open Scope Z_scope.
Local Opaque NB WC_FULLWC layout oxm_fields.

(** *** Specification *)
(** the character of the tbit [b] *)
Definition tchar (w b : Z) : ascii :=
  if Z.testbit w (2 * b) then if Z.testbit w (2 * b + 1) then "x"%char else "0"%char
  else if Z.testbit w (2 * b + 1) then "1"%char else "z"%char.
(** [t] has one character for each tbit of [s], the most significant one first *)
Definition spells (w : Z) (s : slot) (t : string) : Prop :=
  Z.of_nat (String.length t) = sl_bits s /\
  forall j, 0 <= j < sl_bits s -> String.get (Z.to_nat (sl_bits s - 1 - j)) t = Some (tchar w (sl_off s + j)).
Definition shows (w : Z) (s : slot) (x : string) : Prop := exists t, x = (sl_name s ++ "=" ++ t)%string /\ spells w s t.

(** *** The loop *)
Fixpoint spell (n : nat) (v : Z) : string :=
  match n with O => "" | S n => spell n (Z.shiftr v 2) ++ String (tchar v 0) "" end.
Lemma app_assoc_s (a b c : string) : ((a ++ b) ++ c)%string = (a ++ b ++ c)%string.
Proof. induction a as [|x a IH]; cbn; [auto|now rewrite IH]. Qed.
Lemma app_nil_s (a : string) : (a ++ "")%string = a. Proof. induction a as [|x a IH]; cbn; [auto|now rewrite IH]. Qed.
Lemma length_app_s (a b : string) : String.length (a ++ b) = (String.length a + String.length b)%nat.
Proof. induction a as [|x a IH]; cbn; [auto|now rewrite IH]. Qed.
Lemma spell_length n : forall v, String.length (spell n v) = n.
Proof. induction n as [|n IH]; intros v; cbn [spell]; [auto|]. rewrite length_app_s, IH. cbn. lia. Qed.
Lemma tchar_shift v k j : 0 <= k -> 0 <= j -> tchar (Z.shiftr v (2 * k)) j = tchar v (k + j).
Proof. intros Hk Hj. unfold tchar. rewrite !Z.shiftr_spec by lia. now replace (2 * j + 2 * k) with (2 * (k + j)) by lia; replace (2 * j + 1 + 2 * k) with (2 * (k + j) + 1) by lia. Qed.
Lemma spell_get n : forall v j, (j < n)%nat -> String.get (n - 1 - j) (spell n v) = Some (tchar v (Z.of_nat j)).
Proof.
  induction n as [|n IH]; intros v j Hj; [lia|]. cbn [spell]. destruct j as [|j].
  - replace (S n - 1 - 0)%nat with (0 + String.length (spell n (Z.shiftr v 2)))%nat by (rewrite spell_length; lia). rewrite <- append_correct2. reflexivity.
  - replace (S n - 1 - S j)%nat with (n - 1 - j)%nat by lia. rewrite <- append_correct1 by (rewrite spell_length; lia). rewrite IH by lia.
    change 2 with (2 * 1) at 1. rewrite tchar_shift by lia. do 2 f_equal. lia.
Qed.
Lemma land3 v : Z.land v 3 = (if Z.testbit v 0 then 1 else 0) + (if Z.testbit v 1 then 2 else 0).
Proof.
  apply Z.bits_inj'. intros i Hi. rewrite Z.land_spec. change 3 with (Z.ones 2). destruct (Z_lt_ge_dec i 2).
  - rewrite Z.ones_spec_low by lia. assert (i = 0 \/ i = 1) as [->| ->] by lia; destruct (Z.testbit v 0) eqn:E0, (Z.testbit v 1) eqn:E1; rewrite ?E0, ?E1; reflexivity.
  - rewrite Z.ones_spec_high by lia. rewrite andb_false_r. symmetry. apply Z.bits_above_log2; [destruct (Z.testbit v 0), (Z.testbit v 1); lia|].
    destruct (Z.testbit v 0), (Z.testbit v 1); cbn; lia.
Qed.
Definition set_tbit (v i : Z) : Prop := Z.testbit v (2 * i) = true \/ Z.testbit v (2 * i + 1) = true.
Lemma part_char_ok v : set_tbit v 0 -> Z.land v 3 =? 0 = false /\ part_char (Z.land v 3) = tchar v 0.
Proof.
  unfold set_tbit, part_char, tchar. rewrite land3. change (2 * 0) with 0. change (0 + 1) with 1. destruct (Z.testbit v 0), (Z.testbit v 1); intros [H|H]; try discriminate; auto.
Qed.
Lemma parts_ok n : forall v acc, 0 <= v < 4 ^ Z.of_nat n -> (forall i, 0 <= i < Z.of_nat n -> set_tbit v i) -> parts_string n v acc = Ok (spell n v ++ acc)%string.
Proof.
  induction n as [|n IH]; intros v acc Hv Hs.
  - change (4 ^ Z.of_nat 0) with 1 in Hv. assert (v = 0) by lia. now subst.
  - cbn [parts_string spell]. destruct (Z.eqb_spec v 0) as [->|Nz].
    + exfalso. destruct (Hs 0 ltac:(lia)) as [H|H]; now rewrite Z.bits_0 in H.
    + destruct (part_char_ok v (Hs 0 ltac:(lia))) as [-> ->]. rewrite IH.
      * now rewrite app_assoc_s.
      * rewrite Z.shiftr_div_pow2 by lia. change (2 ^ 2) with 4. rewrite Nat2Z.inj_succ, Z.pow_succ_r in Hv by lia. split; [apply Z.div_pos; lia|apply Z.div_lt_upper_bound; lia].
      * intros i Hi. destruct (Hs (i + 1) ltac:(lia)) as [H|H]; [left|right]; rewrite Z.shiftr_spec by lia; rewrite <- H; f_equal; lia.
Qed.
(** the error: a tbit z below one that is not *)
Lemma parts_z n : forall v acc i, 0 <= v -> 0 <= i < Z.of_nat n -> ~ set_tbit v i -> Z.shiftr v (2 * i) <> 0 -> parts_string n v acc = Err AssertionError.
Proof.
  induction n as [|n IH]; intros v acc i Hv Hi Hz Hn; [lia|]. cbn [parts_string].
  destruct (Z.eqb_spec v 0) as [->|Nz]; [now rewrite Z.shiftr_0_l in Hn|]. destruct (Z.eqb_spec (Z.land v 3) 0) as [|N3]; [auto|].
  assert (i <> 0).
  { intros ->. apply N3. rewrite land3. unfold set_tbit in Hz. change (2 * 0) with 0 in Hz. change (0 + 1) with 1 in Hz.
    destruct (Z.testbit v 0), (Z.testbit v 1); try reflexivity; exfalso; apply Hz; auto. }
  apply (IH _ _ (i - 1)); [now apply Z.shiftr_nonneg|lia| |].
  - intros X. apply Hz. destruct X as [X|X]; [left|right]; rewrite Z.shiftr_spec in X by lia; rewrite <- X; f_equal; lia.
  - rewrite Z.shiftr_shiftr by lia. now replace (2 + 2 * (i - 1)) with (2 * i) by lia.
Qed.

(** *** Fields *)
(** each field starts where the one before it ends *)
Fixpoint chained (fs : list slot) (off : Z) : Prop :=
  match fs with [] => off = NB | s :: r => sl_off s = off /\ 0 < sl_bits s /\ chained r (off + sl_bits s) end.
Lemma layout_chained : chained layout extra_padding.
Proof. Transparent layout NB. vm_compute. repeat (split; [reflexivity|]). reflexivity. Qed.
Local Opaque NB layout.
Lemma mask_bits k x : 0 <= k -> forall i, 0 <= i -> Z.testbit (Z.land (Z.shiftl 1 k - 1) x) i = ((i <? k) && Z.testbit x i)%bool.
Proof.
  intros Hk i Hi. replace (Z.shiftl 1 k - 1) with (Z.ones k) by (unfold Z.ones; lia). rewrite Z.land_spec. f_equal.
  destruct (Z.ltb_spec i k); [apply Z.ones_spec_low; lia|apply Z.ones_spec_high; lia].
Qed.
Lemma field_value_range k x : 0 <= k -> 0 <= Z.land (Z.shiftl 1 (k * 2) - 1) x < 4 ^ k.
Proof.
  intros Hk. replace (Z.shiftl 1 (k * 2) - 1) with (Z.ones (k * 2)) by (unfold Z.ones; lia). rewrite Z.land_comm, Z.land_ones by lia.
  replace (4 ^ k) with (2 ^ (k * 2)) by (change 4 with (2 ^ 2); rewrite <- Z.pow_mul_r by lia; f_equal; lia). apply Z.mod_pos_bound. apply Z.pow_pos_nonneg; lia.
Qed.
Lemma fields_ok w : wc_ok w -> forall fs off, 0 <= off -> chained fs off ->
  exists res, fields_strings fs (Z.shiftr w (2 * off)) = Ok res /\ Forall2 (shows w) fs res.
Proof.
  intros [Hr Hz]. induction fs as [|s fs IH]; intros off Ho C; cbn [fields_strings]; [exists []; split; [auto|constructor]|]. destruct C as (Eo & Hb & C).
  assert (Le : off + sl_bits s <= NB).
  { clear - C. revert C. generalize (off + sl_bits s). induction fs as [|t fs IHf]; intros o C; cbn [chained] in C; [lia|]. destruct C as (_ & H & C). apply IHf in C. lia. }
  set (v := Z.land (Z.shiftl 1 (sl_bits s * 2) - 1) (Z.shiftr w (2 * off))).
  assert (Bits : forall i, 0 <= i < 2 * sl_bits s -> Z.testbit v i = Z.testbit w (2 * off + i)).
  { intros i Hi. unfold v. rewrite mask_bits by lia. replace (i <? sl_bits s * 2) with true by lia. cbn [andb]. rewrite Z.shiftr_spec by lia. f_equal. lia. }
  rewrite parts_ok.
  - cbn [rbind]. destruct (IH (off + sl_bits s)) as (res & E & F); [lia|auto|]. rewrite Z.shiftr_shiftr by lia. replace (2 * off + sl_bits s * 2) with (2 * (off + sl_bits s)) by lia.
    rewrite E. cbn [rbind]. eexists. split; [reflexivity|]. constructor; [|exact F]. eexists. split; [reflexivity|]. rewrite app_nil_s. split; [rewrite spell_length; lia|].
    intros j Hj. replace (Z.to_nat (sl_bits s - 1 - j)) with (Z.to_nat (sl_bits s) - 1 - Z.to_nat j)%nat by lia. rewrite spell_get by lia. rewrite Z2Nat.id by lia. f_equal.
    unfold tchar. rewrite !Bits by lia. rewrite Eo. replace (2 * off + 2 * j) with (2 * (off + j)) by lia. now replace (2 * off + (2 * j + 1)) with (2 * (off + j) + 1) by lia.
  - rewrite Z2Nat.id by lia. apply field_value_range. lia.
  - intros i Hi. rewrite Z2Nat.id in Hi by lia. fold v. unfold set_tbit. rewrite !Bits by lia. replace (2 * off + 2 * i) with (2 * (off + i)) by lia. replace (2 * off + (2 * i + 1)) with (2 * (off + i) + 1) by lia.
    apply Hz. lia.
Qed.
Lemma tint_ok w : padding_open w -> wildcard_to_tint w = Ok (Z.shiftr w (2 * extra_padding)).
Proof.
  intros P. unfold wildcard_to_tint. assert (E : Z.land (Z.shiftl 1 (extra_padding * 2) - 1) w = Z.shiftl 1 (extra_padding * 2) - 1).
  { assert (0 <= extra_padding * 2) by (rewrite extra_padding_val; lia). apply Z.bits_inj'. intros i Hi. rewrite mask_bits by lia.
    replace (Z.shiftl 1 (extra_padding * 2) - 1) with (Z.ones (extra_padding * 2)) by (unfold Z.ones; lia).
    destruct (Z.ltb_spec i (extra_padding * 2)); [rewrite P by lia; symmetry; apply Z.ones_spec_low; lia|symmetry; apply Z.ones_spec_high; lia]. }
  rewrite E, Z.eqb_refl. reflexivity.
Qed.
(** *** The text determines the wildcard *)
Lemma app_inj_s (a b c d : string) : String.length a = String.length c -> (a ++ b)%string = (c ++ d)%string -> a = c /\ b = d.
Proof.
  revert c. induction a as [|x a IH]; intros [|y c] L E; cbn in *; try discriminate; [auto|]. injection E as -> E. injection L as L. destruct (IH c L E). subst. auto.
Qed.
Lemma concat_inj sep : forall l l', Forall2 (fun a b => String.length a = String.length b) l l' -> String.concat sep l = String.concat sep l' -> l = l'.
Proof.
  induction 1 as [|a b l l' L F IH]; intros E; [auto|]. destruct F as [|c d l l' L' F].
  - cbn in E. now subst.
  - cbn [String.concat] in E, IH. apply app_inj_s in E as [-> E]; [|auto]. apply app_inj_s in E as [_ E]; [|auto]. now rewrite (IH E).
Qed.
Lemma shows_length w w' s x y : shows w s x -> shows w' s y -> String.length x = String.length y.
Proof. intros (t & -> & L & _) (t' & -> & L' & _). rewrite !length_app_s. lia. Qed.
Lemma shows_same w w' s x : 0 < sl_bits s -> shows w s x -> shows w' s x -> forall j, 0 <= j < sl_bits s -> tchar w (sl_off s + j) = tchar w' (sl_off s + j).
Proof.
  intros Hb (t & -> & L & G) (t' & E & L' & G') j Hj. apply app_inj_s in E as [_ E]; [|auto]. apply app_inj_s in E as [_ E]; [|auto]. subst t'.
  specialize (G j Hj). specialize (G' j Hj). congruence.
Qed.
Lemma tchar_inj w w' b : tchar w b = tchar w' b -> Z.testbit w (2 * b) = Z.testbit w' (2 * b) /\ Z.testbit w (2 * b + 1) = Z.testbit w' (2 * b + 1).
Proof. unfold tchar. destruct (Z.testbit w (2 * b)), (Z.testbit w (2 * b + 1)), (Z.testbit w' (2 * b)), (Z.testbit w' (2 * b + 1)); intros E; try discriminate; auto. Qed.
Lemma chained_find : forall fs off b, chained fs off -> off <= b < NB -> exists s, In s fs /\ 0 < sl_bits s /\ 0 <= b - sl_off s < sl_bits s.
Proof.
  induction fs as [|s fs IH]; intros off b C Hb; cbn [chained] in C; [lia|]. destruct C as (Eo & Hp & C).
  destruct (Z_lt_ge_dec b (off + sl_bits s)); [exists s; split; [now left|]; lia|]. destruct (IH _ b C ltac:(lia)) as (t & Ht & X). exists t. split; [now right|auto].
Qed.
Lemma same_bits a b : wc_range a -> wc_range b -> padding_open a -> padding_open b ->
  (forall i, extra_padding <= i < NB -> tchar a i = tchar b i) -> a = b.
Proof.
  intros [Ra Ra'] [Rb Rb'] Pa Pb H. apply Z.bits_inj'. intros n Hn. destruct (Z_lt_ge_dec n (2 * extra_padding)); [now rewrite Pa, Pb by lia|].
  destruct (Z_lt_ge_dec n (2 * NB)) as [Lt|Ge].
  - assert (E := Z.div_mod n 2 ltac:(lia)). assert (B := Z.mod_pos_bound n 2 ltac:(lia)). assert (X : tchar a (n / 2) = tchar b (n / 2)) by (apply H; lia).
    apply tchar_inj in X as [X1 X2]. assert (n = 2 * (n / 2) \/ n = 2 * (n / 2) + 1) as [->| ->] by lia; auto.
  - rewrite <- (Z.mod_small a (2 ^ (2 * NB))), <- (Z.mod_small b (2 ^ (2 * NB))) by lia. assert (X := NB_val). rewrite !Z.mod_pow2_bits_high by lia. reflexivity.
Qed.
