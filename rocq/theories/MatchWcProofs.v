(** Proofs relating flow matches and wildcards (C04, C05). *)
From Verif Require Import Wildcard Spec WildcardProofs MortonProofs.
From Coq Require Import ZifyBool ZifyNat ZifyN.
Ltac Zify.zify_post_hook ::= Z.div_mod_to_equations.
Local Opaque NB.

(** *** Layout facts, each a sweep over the (finite) field table *)
Fixpoint contig (off : Z) (l : list slot) : Prop :=
  match l with
  | [] => True
  | s :: t => sl_off s = off /\ 0 < sl_bits s /\ contig (off + sl_bits s) t
  end.
Fixpoint total (l : list slot) : Z := match l with [] => 0 | s :: t => sl_bits s + total t end.

Lemma layout_contig : contig extra_padding layout.
Proof. vm_compute. repeat split; reflexivity. Qed.
Lemma layout_total : extra_padding + total layout = NB.
Proof. vm_compute. reflexivity. Qed.
Lemma layout_names_nodup : NoDup (map sl_name layout).
Proof.
  assert (H : (fix nd (l : list string) := match l with [] => true | x :: t => negb (existsb (String.eqb x) t) && nd t end)
              (map sl_name layout) = true) by (vm_compute; reflexivity).
  revert H. induction (map sl_name layout) as [|x t IH]; intros H; constructor.
  - apply andb_true_iff in H as [H _]. intros Hin. apply negb_true_iff in H.
    assert (existsb (String.eqb x) t = true); [|congruence].
    apply existsb_exists. exists x. split; auto. apply String.eqb_refl.
  - apply IH. apply andb_true_iff in H. tauto.
Qed.

Lemma layout_lookup s : In s layout ->
  field_bits (sl_name s) = Some (sl_bits s) /\ field_offset (sl_name s) = Some (sl_off s).
Proof.
  assert (H : forallb (fun s => match field_bits (sl_name s), field_offset (sl_name s) with
                      | Some b, Some o => (b =? sl_bits s) && (o =? sl_off s) | _, _ => false end) layout = true)
    by (vm_compute; reflexivity).
  rewrite forallb_forall in H. intros Hs. specialize (H s Hs).
  destruct (field_bits (sl_name s)), (field_offset (sl_name s)); try discriminate.
  split; f_equal; lia.
Qed.

Lemma find_field_in l n d : find_field l n = Some d -> In d l /\ fd_name d = n.
Proof.
  induction l as [|x t IH]; cbn; [discriminate|].
  destruct (String.eqb_spec (fd_name x) n).
  - intros [= <-]. auto.
  - intros H. destruct (IH H). auto.
Qed.

Lemma field_bits_slot n b : field_bits n = Some b -> exists s, In s layout /\ sl_name s = n.
Proof.
  unfold field_bits. destruct (find_field oxm_fields n) as [d|] eqn:E; [|discriminate]. intros _.
  apply find_field_in in E as [Hin <-].
  assert (H : forallb (fun d => existsb (fun s => String.eqb (sl_name s) (fd_name d)) layout) oxm_fields = true)
    by (vm_compute; reflexivity).
  rewrite forallb_forall in H. specialize (H d Hin). apply existsb_exists in H as [s [Hs E]].
  apply String.eqb_eq in E. eauto.
Qed.

Lemma field_lookup_cases n :
  (exists s, In s layout /\ sl_name s = n /\ field_bits n = Some (sl_bits s) /\ field_offset n = Some (sl_off s))
  \/ (field_bits n = None /\ forall s, In s layout -> sl_name s <> n).
Proof.
  destruct (field_bits n) as [b|] eqn:E.
  - left. destruct (field_bits_slot n b E) as [s [Hs <-]]. exists s.
    destruct (layout_lookup s Hs) as [H1 H2]. rewrite <- E. auto.
  - right. split; [reflexivity|]. intros s Hs <-. destruct (layout_lookup s Hs). congruence.
Qed.

Lemma contig_range l : forall off s, contig off l -> In s l ->
  off <= sl_off s /\ 0 < sl_bits s /\ sl_off s + sl_bits s <= off + total l.
Proof.
  induction l as [|x t IH]; intros off s Hc Hin; [destruct Hin|].
  destruct Hc as [H1 [H2 H3]]. cbn [total].
  assert (Ht : 0 <= total t).
  { clear - H3. revert H3. generalize (off + sl_bits x). induction t as [|y t IH]; cbn; [lia|].
    intros o [? [? H]]. specialize (IH _ H). lia. }
  destruct Hin as [->|Hin]; [lia|]. destruct (IH _ _ H3 Hin). lia.
Qed.

Lemma slot_range s : In s layout ->
  extra_padding <= sl_off s /\ 0 < sl_bits s /\ sl_off s + sl_bits s <= NB.
Proof.
  intros H. destruct (contig_range layout _ s layout_contig H) as [H1 [H2 H3]].
  rewrite layout_total in H3. auto.
Qed.

(** Two slots are equal or disjoint. *)
Lemma contig_disjoint l : forall off s s', contig off l -> In s l -> In s' l ->
  s = s' \/ sl_off s + sl_bits s <= sl_off s' \/ sl_off s' + sl_bits s' <= sl_off s.
Proof.
  induction l as [|x t IH]; intros off s s' Hc Hs Hs'; [destruct Hs|].
  destruct Hc as [H1 [H2 H3]].
  destruct Hs as [->|Hs], Hs' as [->|Hs']; auto.
  - right. left. destruct (contig_range t _ s' H3 Hs'). lia.
  - right. right. destruct (contig_range t _ s H3 Hs). lia.
  - eapply IH; eauto.
Qed.
Lemma slot_disjoint s s' : In s layout -> In s' layout ->
  s = s' \/ sl_off s + sl_bits s <= sl_off s' \/ sl_off s' + sl_bits s' <= sl_off s.
Proof. apply contig_disjoint with extra_padding. apply layout_contig. Qed.

Lemma slot_name_inj s s' : In s layout -> In s' layout -> sl_name s = sl_name s' -> s = s'.
Proof.
  intros Hs Hs' E. destruct (layout_lookup s Hs) as [A B], (layout_lookup s' Hs') as [A' B'].
  destruct s as [n1 o1 b1], s' as [n2 o2 b2]; cbn [sl_name sl_off sl_bits] in *; congruence.
Qed.

(** Every field position lies in a slot. *)
Lemma contig_cover l : forall off i, contig off l -> off <= i < off + total l ->
  exists s, In s l /\ sl_off s <= i < sl_off s + sl_bits s.
Proof.
  induction l as [|x t IH]; intros off i Hc Hi; cbn [total] in *; [lia|].
  destruct Hc as [H1 [H2 H3]].
  destruct (Z_lt_ge_dec i (off + sl_bits x)).
  - exists x. split; [now left|lia].
  - destruct (IH _ i H3 ltac:(lia)) as [s [Hs Hr]]. exists s. split; [now right|auto].
Qed.
Lemma slot_cover i : extra_padding <= i < NB -> exists s, In s layout /\ sl_off s <= i < sl_off s + sl_bits s.
Proof. intros H. apply contig_cover with extra_padding; [apply layout_contig|]. rewrite layout_total. lia. Qed.

(** *** One match item *)
Definition mask_bit (m : option Z) (j : Z) : bool := match m with None => true | Some m => Z.testbit m j end.

Definition item_bit (it : match_item) (n : Z) : bool :=
  let '(field, (v, m)) := it in
  match field_bits field, field_offset field with
  | Some bits, Some off =>
    if (2 * off <=? n) && (n <? 2 * off + 2 * bits) then
      let j := n / 2 - off in
      if Z.even n then negb (Z.testbit v j) || negb (mask_bit m j)
      else Z.testbit v j || negb (mask_bit m j)
    else true
  | _, _ => true
  end.

Lemma ones_shiftl n : Z.shiftl 1 n - 1 = Z.ones n.
Proof. rewrite Z.ones_equiv. rewrite Z.shiftl_1_l. lia. Qed.

Lemma ones_nonneg n : 0 <= n -> 0 <= Z.ones n.
Proof. intros H. rewrite Z.ones_equiv. lia. Qed.

Lemma ones_testbit n i : 0 <= n -> 0 <= i -> Z.testbit (Z.ones n) i = (i <? n).
Proof.
  intros Hn Hi. destruct (Z.ltb_spec i n); [apply Z.ones_spec_low; lia|apply Z.ones_spec_high; lia].
Qed.

Lemma match_item_wc_ok wc it : 0 <= wc ->
  exists w, match_item_wc wc it = Ok w /\ 0 <= w /\
  forall n, 0 <= n -> Z.testbit w n = Z.testbit wc n && item_bit it n.
Proof.
  intros Hwc. destruct it as [field [v m]]. unfold match_item_wc, item_bit.
  destruct (field_lookup_cases field) as [[s [Hs [Hn [Eb Eo]]]]|[Eb _]]; rewrite Eb.
  2:{ exists wc. repeat split; auto. intros. now rewrite andb_true_r. }
  rewrite Eo. destruct (slot_range s Hs) as [R1 [R2 R3]].
  assert (HEP : 0 <= extra_padding) by (rewrite extra_padding_val; lia).
  set (bits := sl_bits s) in *. set (off := sl_off s) in *.
  rewrite ones_shiftl. set (wmask := Z.ones (bits * 2)).
  set (mask := match m with Some x => x | None => wmask end).
  assert (NN : forall x, 0 <= Z.land x wmask).
  { intros x. apply Z.land_nonneg. right. apply ones_nonneg. lia. }
  destruct (morton_pdep64_ok _ _ (NN (Z.lor (Z.lnot v) (Z.lnot mask))) (NN (Z.lor v (Z.lnot mask))))
    as [mm [-> [Hmm HI]]]. cbn [rbind].
  eexists. split; [reflexivity|]. split. { apply Z.land_nonneg. auto. }
  intros n Hn0. rewrite Z.land_spec. f_equal.
  rewrite Z.lor_spec, Z.lnot_spec by lia.
  destruct ((2 * off <=? n) && (n <? 2 * off + 2 * bits)) eqn:ER.
  - rewrite !Z.shiftl_spec by lia. unfold wmask at 1. rewrite ones_testbit by lia.
    replace (n - off * 2 <? bits * 2) with true by lia. cbn [negb]. rewrite orb_false_r.
    set (j := n / 2 - off). assert (Hj : 0 <= j < bits) by lia.
    assert (Hmk : Z.testbit mask j = mask_bit m j).
    { unfold mask, mask_bit. destruct m; [reflexivity|]. unfold wmask. rewrite ones_testbit by lia. lia. }
    destruct (HI j ltac:(lia)) as [He Ho].
    destruct (Z.even n) eqn:Ev.
    + apply Z.even_spec in Ev as [k ->]. replace (2 * k - off * 2) with (2 * j) by lia. rewrite He.
      unfold wmask at 1. rewrite Z.land_spec, Z.lor_spec, !Z.lnot_spec, ones_testbit by lia.
      replace (j <? bits * 2) with true by lia. rewrite andb_true_r, Hmk. reflexivity.
    + assert (Od : Z.odd n = true) by (rewrite <- Z.negb_even, Ev; reflexivity).
      apply Z.odd_spec in Od as [k ->]. replace (2 * k + 1 - off * 2) with (2 * j + 1) by lia. rewrite Ho.
      unfold wmask at 1. rewrite Z.land_spec, Z.lor_spec, !Z.lnot_spec, ones_testbit by lia.
      replace (j <? bits * 2) with true by lia. rewrite andb_true_r, Hmk. reflexivity.
  - destruct (Z_lt_ge_dec n (2 * off)) as [Hl|Hg].
    + rewrite (Z.shiftl_spec_low wmask) by lia. apply orb_true_r.
    + rewrite (Z.shiftl_spec wmask) by lia. unfold wmask. rewrite ones_testbit by lia.
      replace (n - off * 2 <? bits * 2) with false by lia. apply orb_true_r.
Qed.

Lemma item_bit_accepts it p :
  item_accepts it p <-> forall i, 0 <= i < NB -> item_bit it (2 * i + (if p i then 1 else 0)) = true.
Proof.
  destruct it as [field [v m]]. unfold item_accepts, item_bit, field_bit. cbn [fst snd].
  assert (HEP : 0 <= extra_padding) by (rewrite extra_padding_val; lia).
  destruct (field_lookup_cases field) as [[s [Hs [Hn [Eb Eo]]]]|[Eb Hnone]]; rewrite Eb.
  2:{ split; [reflexivity|]. intros _ s Hs E. exfalso. now apply (Hnone s). }
  rewrite Eo. destruct (slot_range s Hs) as [R1 [R2 R3]]. split.
  - intros H i Hi. destruct ((2 * sl_off s <=? _) && _) eqn:ER; [|reflexivity].
    assert (Hj : 0 <= i - sl_off s < sl_bits s) by (destruct (p i); lia).
    specialize (H s Hs Hn (i - sl_off s) Hj). fold (mask_bit m (i - sl_off s)) in H.
    replace (sl_off s + (i - sl_off s)) with i in H by lia.
    destruct (p i) eqn:Ep.
    + rewrite even_2i1. replace ((2 * i + 1) / 2 - sl_off s) with (i - sl_off s) by lia.
      destruct (mask_bit m (i - sl_off s)); [|now rewrite orb_true_r].
      rewrite <- H by reflexivity. reflexivity.
    + rewrite Z.add_0_r, even_2i. replace ((2 * i) / 2 - sl_off s) with (i - sl_off s) by lia.
      destruct (mask_bit m (i - sl_off s)); [|now rewrite orb_true_r].
      rewrite <- H by reflexivity. reflexivity.
  - intros H s' Hs' En j Hj Hmk. assert (s' = s) as -> by (apply slot_name_inj; congruence).
    fold (mask_bit m j) in Hmk. specialize (H (sl_off s + j) ltac:(lia)).
    destruct (p (sl_off s + j)) eqn:Ep.
    + replace ((2 * sl_off s <=? 2 * (sl_off s + j) + 1) && (2 * (sl_off s + j) + 1 <? 2 * sl_off s + 2 * sl_bits s)) with true in H by lia.
      rewrite even_2i1 in H. replace ((2 * (sl_off s + j) + 1) / 2 - sl_off s) with j in H by lia.
      rewrite Hmk in H. cbn in H. rewrite orb_false_r in H. auto.
    + rewrite Z.add_0_r in H.
      replace ((2 * sl_off s <=? 2 * (sl_off s + j)) && (2 * (sl_off s + j) <? 2 * sl_off s + 2 * sl_bits s)) with true in H by lia.
      rewrite even_2i in H. replace ((2 * (sl_off s + j)) / 2 - sl_off s) with j in H by lia.
      rewrite Hmk in H. cbn in H. rewrite orb_false_r in H. symmetry. now apply negb_true_iff.
Qed.

Lemma rfold_wc ms : forall wc, 0 <= wc ->
  exists w, rfold match_item_wc ms wc = Ok w /\ 0 <= w /\
  forall n, 0 <= n -> Z.testbit w n = Z.testbit wc n && forallb (fun it => item_bit it n) ms.
Proof.
  induction ms as [|it ms IH]; intros wc Hwc; cbn [rfold forallb].
  - exists wc. repeat split; auto. intros. now rewrite andb_true_r.
  - destruct (match_item_wc_ok wc it Hwc) as [w1 [-> [H1 B1]]]. cbn [rbind].
    destruct (IH w1 H1) as [w [-> [H2 B2]]]. exists w. repeat split; auto.
    intros n Hn. rewrite B2, B1, andb_assoc by lia. reflexivity.
Qed.

Lemma NB16 : bytes_needed * 16 = 2 * NB. Proof. reflexivity. Qed.
Lemma FULL_testbit n : 0 <= n -> Z.testbit WC_FULLWC n = (n <? 2 * NB).
Proof.
  intros Hn. unfold WC_FULLWC. rewrite ones_shiftl, NB16. apply ones_testbit; [|lia].
  assert (H := NB_pos). lia.
Qed.
Lemma FULL_nonneg : 0 <= WC_FULLWC.
Proof. unfold WC_FULLWC. rewrite ones_shiftl. apply ones_nonneg. rewrite NB16. assert (H := NB_pos). lia. Qed.

Lemma flow_matches_to_wildcard_bits ms :
  exists w, flow_matches_to_wildcard ms = Ok w /\ 0 <= w /\
  forall n, 0 <= n -> Z.testbit w n = (n <? 2 * NB) && forallb (fun it => item_bit it n) ms.
Proof.
  unfold flow_matches_to_wildcard. destruct (rfold_wc ms WC_FULLWC FULL_nonneg) as [w [E [H0 H]]].
  exists w. repeat split; auto. intros n Hn. rewrite H, FULL_testbit by lia. reflexivity.
Qed.

Lemma item_bit_slot it n s : In s layout -> sl_name s = fst it ->
  (n < 2 * sl_off s \/ 2 * sl_off s + 2 * sl_bits s <= n) -> item_bit it n = true.
Proof.
  intros Hs E Hr. destruct it as [f [v m]]. unfold item_bit. cbn [fst] in E.
  destruct (layout_lookup s Hs) as [A B]. rewrite <- E, A, B.
  replace ((2 * sl_off s <=? n) && _) with false by lia. reflexivity.
Qed.

Lemma item_bit_pair it i : 0 <= i -> item_bit it (2 * i) = false -> item_bit it (2 * i + 1) = true.
Proof.
  intros Hi. destruct it as [f [v m]]. unfold item_bit.
  destruct (field_bits f) as [b|]; [|reflexivity]. destruct (field_offset f) as [o|]; [|reflexivity].
  rewrite even_2i, even_2i1.
  destruct ((2 * o <=? 2 * i) && (2 * i <? 2 * o + 2 * b)) eqn:E; [|discriminate].
  replace ((2 * o <=? 2 * i + 1) && (2 * i + 1 <? 2 * o + 2 * b)) with true by lia.
  replace ((2 * i + 1) / 2) with (2 * i / 2) by lia.
  destruct (Z.testbit v _); cbn; [reflexivity|discriminate].
Qed.

Lemma wildcard_of_match ms :
  exists w, flow_matches_to_wildcard ms = Ok w /\ wc_range w /\ padding_open w /\
  (forall p, accepts w p <-> match_accepts ms p) /\
  (NoDup (map fst ms) -> zfree w).
Proof.
  destruct (flow_matches_to_wildcard_bits ms) as [w [E [H0 H]]]. exists w.
  assert (HEP : 0 <= extra_padding) by (rewrite extra_padding_val; lia).
  assert (HEN : extra_padding < NB) by (rewrite extra_padding_val, NB_val; lia).
  split; [auto|]. split; [|split; [|split]].
  - apply wc_range_bits; [lia|]. intros i Hi. assert (HN := NB_pos). rewrite H by lia.
    replace (i <? 2 * NB) with false by lia. reflexivity.
  - intros b Hb. rewrite H by lia. replace (b <? 2 * NB) with true by lia. cbn [andb].
    apply forallb_forall. intros it Hit. destruct (field_lookup_cases (fst it)) as [[s [Hs [En _]]]|[Eb _]].
    + apply item_bit_slot with s; auto. left. destruct (slot_range s Hs). lia.
    + destruct it as [f [v m]]. unfold item_bit. cbn [fst] in Eb. rewrite Eb. reflexivity.
  - intros p. unfold accepts, match_accepts. split.
    + intros HA it Hit. apply item_bit_accepts. intros i Hi. specialize (HA i Hi).
      rewrite H in HA by (destruct (p i); lia). apply andb_true_iff in HA as [_ HA].
      rewrite forallb_forall in HA. auto.
    + intros HA i Hi. rewrite H by (destruct (p i); lia).
      replace (_ <? _) with true by (destruct (p i); lia). apply forallb_forall.
      intros it Hit. specialize (HA it Hit). rewrite item_bit_accepts in HA. auto.
  - intros ND i Hi. rewrite !H by lia. replace (2 * i <? 2 * NB) with true by lia.
    replace (2 * i + 1 <? 2 * NB) with true by lia. cbn [andb].
    destruct (forallb (fun it => item_bit it (2 * i)) ms) eqn:EA; [auto|right].
    destruct (forallb_false_exists _ _ EA) as [it [Hit Hf]].
    assert (Hp := item_bit_pair it i ltac:(lia) Hf).
    (* the slot of it contains i *)
    destruct (field_lookup_cases (fst it)) as [[s [Hs [En _]]]|[Eb _]].
    2:{ destruct it as [f [v m]]. unfold item_bit in Hf. cbn [fst] in Eb. rewrite Eb in Hf. discriminate. }
    assert (Hin : 2 * sl_off s <= 2 * i < 2 * sl_off s + 2 * sl_bits s).
    { destruct (Z_lt_ge_dec (2 * i) (2 * sl_off s)); [|destruct (Z_lt_ge_dec (2 * i) (2 * sl_off s + 2 * sl_bits s)); [lia|]];
        rewrite (item_bit_slot it (2 * i) s) in Hf by (auto; lia); discriminate. }
    apply forallb_forall. intros it' Hit'.
    destruct (String.string_dec (fst it') (fst it)) as [Ef|Nf].
    + assert (it' = it) as ->; [|exact Hp].
      clear - ND Hit Hit' Ef. induction ms as [|x t IH]; [destruct Hit|].
      cbn in ND. inversion ND as [|? ? Hnx HND]; subst.
      destruct Hit as [->|Hit], Hit' as [->|Hit']; auto.
      * exfalso. apply Hnx. rewrite <- Ef. now apply in_map.
      * exfalso. apply Hnx. rewrite Ef. now apply in_map.
    + destruct (field_lookup_cases (fst it')) as [[s' [Hs' [En' _]]]|[Eb' _]].
      * apply item_bit_slot with s'; auto.
        destruct (slot_disjoint s s' Hs Hs') as [->|D]; [congruence|]. lia.
      * destruct it' as [f [v m]]. unfold item_bit. cbn [fst] in Eb'. rewrite Eb'. reflexivity.
Qed.

(** *** Wildcard to fields *)
Definition slice (wc : Z) (s : slot) : Z :=
  Z.land (Z.shiftr wc (sl_off s * 2)) (Z.shiftl 1 (sl_bits s * 2) - 1).

(** The even/odd halves of a field slice, as integers. *)
Fixpoint from_bits (f : Z -> bool) (n : nat) : Z :=
  match n with O => 0 | S n' => Z.lor (from_bits f n') (if f (Z.of_nat n') then Z.shiftl 1 (Z.of_nat n') else 0) end.
Lemma from_bits_ok f n : 0 <= from_bits f n /\ forall i, 0 <= i -> Z.testbit (from_bits f n) i = (i <? Z.of_nat n) && f i.
Proof.
  induction n as [|n [IH0 IH]]; cbn [from_bits].
  - split; [lia|]. intros i Hi. rewrite Z.bits_0. replace (i <? Z.of_nat 0) with false by lia. reflexivity.
  - split. { apply Z.lor_nonneg. split; auto. destruct (f _); [apply Z.shiftl_nonneg|]; lia. }
    intros i Hi. rewrite Z.lor_spec, IH by lia. destruct (f (Z.of_nat n)) eqn:E.
    + rewrite Z.shiftl_1_l, Z.pow2_bits_eqb by lia.
      destruct (Z.eqb_spec (Z.of_nat n) i) as [<-|Hn].
      * rewrite E. rewrite orb_true_r. replace (_ <? _) with true by lia. reflexivity.
      * rewrite orb_false_r. f_equal. lia.
    + rewrite Z.bits_0, orb_false_r. destruct (Z.eq_dec i (Z.of_nat n)) as [->|Hn].
      * rewrite E. now rewrite !andb_false_r.
      * f_equal. lia.
Qed.

Definition ev (wc : Z) (s : slot) : Z := from_bits (fun j => Z.testbit wc (2 * (sl_off s + j))) (Z.to_nat (sl_bits s)).
Definition od (wc : Z) (s : slot) : Z := from_bits (fun j => Z.testbit wc (2 * (sl_off s + j) + 1)) (Z.to_nat (sl_bits s)).

Definition extract (wc : Z) (s : slot) : list match_item :=
  let a := ev wc s in let b := od wc s in
  if Z.lxor a b =? 0 then []
  else if Z.lxor a b =? Z.shiftl 1 (sl_bits s) - 1
       then [(sl_name s, (Z.land b (Z.lxor a b), None))]
       else [(sl_name s, (Z.land b (Z.lxor a b), Some (Z.lxor a b)))].

Lemma slice_bits wc s : 0 <= sl_off s -> 0 < sl_bits s ->
  0 <= slice wc s /\ forall n, 0 <= n -> Z.testbit (slice wc s) n = (n <? 2 * sl_bits s) && Z.testbit wc (2 * sl_off s + n).
Proof.
  intros Ho Hb. unfold slice. rewrite ones_shiftl. split.
  - apply Z.land_nonneg. right. apply ones_nonneg. lia.
  - intros n Hn. rewrite Z.land_spec, Z.shiftr_spec, ones_testbit by lia. rewrite andb_comm.
    f_equal; [lia|f_equal; lia].
Qed.

Lemma RMorton_slice wc s : 0 <= sl_off s -> 0 < sl_bits s -> RMorton (slice wc s) = Ok (ev wc s, od wc s).
Proof.
  intros Ho Hb. destruct (slice_bits wc s Ho Hb) as [S0 HS].
  destruct (from_bits_ok (fun j => Z.testbit wc (2 * (sl_off s + j))) (Z.to_nat (sl_bits s))) as [E0 HE].
  destruct (from_bits_ok (fun j => Z.testbit wc (2 * (sl_off s + j) + 1)) (Z.to_nat (sl_bits s))) as [O0 HO].
  apply RMorton_inverts; auto. split; [auto|].
  intros i Hi. rewrite !HS by lia. unfold ev, od. rewrite HE, HO by lia. split.
  - f_equal; [lia|f_equal; lia].
  - f_equal; [lia|f_equal; lia].
Qed.

Lemma slice_full wc s : 0 <= sl_off s -> 0 < sl_bits s ->
  (slice wc s = Z.shiftl 1 (sl_bits s * 2) - 1 <->
   forall n, 2 * sl_off s <= n < 2 * sl_off s + 2 * sl_bits s -> Z.testbit wc n = true).
Proof.
  intros Ho Hb. destruct (slice_bits wc s Ho Hb) as [S0 HS]. rewrite ones_shiftl. split.
  - intros E n Hn. specialize (HS (n - 2 * sl_off s) ltac:(lia)). rewrite E, ones_testbit in HS by lia.
    replace (n - 2 * sl_off s <? sl_bits s * 2) with true in HS by lia. symmetry in HS.
    apply andb_true_iff in HS as [_ HS]. rewrite <- HS. f_equal. lia.
  - intros H. apply Z.bits_inj'. intros n Hn. rewrite HS, ones_testbit by lia.
    destruct (Z.ltb_spec n (2 * sl_bits s)).
    + rewrite H by lia. cbn. lia.
    + cbn. lia.
Qed.

Lemma extract_full wc s : 0 <= sl_off s -> 0 < sl_bits s ->
  (forall n, 2 * sl_off s <= n < 2 * sl_off s + 2 * sl_bits s -> Z.testbit wc n = true) ->
  extract wc s = [].
Proof.
  intros Ho Hb H. unfold extract.
  destruct (from_bits_ok (fun j => Z.testbit wc (2 * (sl_off s + j))) (Z.to_nat (sl_bits s))) as [E0 HE].
  destruct (from_bits_ok (fun j => Z.testbit wc (2 * (sl_off s + j) + 1)) (Z.to_nat (sl_bits s))) as [O0 HO].
  assert (ev wc s = od wc s) as ->.
  { apply Z.bits_inj'. intros i Hi. unfold ev, od. rewrite HE, HO by lia.
    destruct (Z.ltb_spec i (Z.of_nat (Z.to_nat (sl_bits s)))); [|reflexivity].
    cbn [andb]. rewrite !H by lia. reflexivity. }
  rewrite Z.lxor_nilpotent. reflexivity.
Qed.

Lemma bit_scan0_ok wc fuel : forall o, 0 <= o -> (exists z, o <= z /\ z <= o + Z.of_nat fuel /\ Z.testbit wc z = false) ->
  exists o', bit_scan0 fuel wc o = Ok o' /\ o <= o' /\ Z.testbit wc o' = false /\
  forall n, o <= n < o' -> Z.testbit wc n = true.
Proof.
  induction fuel as [|fuel IH]; intros o Ho [z [Hz1 [Hz2 Hz]]]; cbn [bit_scan0].
  - assert (z = o) as -> by lia. rewrite Hz. exists o. split; [reflexivity|]. split; [lia|]. split; [auto|]. intros; lia.
  - destruct (Z.testbit wc o) eqn:E.
    + destruct (IH (o + 1) ltac:(lia)) as [o' [H1 [H2 [H3 H4]]]].
      { exists z. repeat split; auto; try lia. destruct (Z.eq_dec z o) as [->|]; [congruence|lia]. }
      exists o'. repeat split; auto; try lia. intros n Hn. destruct (Z.eq_dec n o) as [->|]; auto. apply H4. lia.
    + exists o. split; [reflexivity|]. split; [lia|]. split; [auto|]. intros; lia.
Qed.

Lemma nth_error_repeat_app {A} (x : A) n l k :
  (k < n)%nat -> nth_error (repeat x n ++ l) k = Some x.
Proof.
  intros H. rewrite nth_error_app1 by (rewrite repeat_length; lia). apply nth_error_repeat. lia.
Qed.
Lemma nth_error_repeat_app2 {A} (x : A) n l k :
  (n <= k)%nat -> nth_error (repeat x n ++ l) k = nth_error l (k - n).
Proof.
  intros H. rewrite nth_error_app2 by (rewrite repeat_length; lia). now rewrite repeat_length.
Qed.

Lemma flat_repeat_at l : forall off s n, 0 <= off -> contig off l -> In s l ->
  2 * sl_off s <= n < 2 * sl_off s + 2 * sl_bits s ->
  nth_error (flat_map (fun s => repeat (Some s) (Z.to_nat (sl_bits s * 2))) l) (Z.to_nat (n - 2 * off)) = Some (Some s).
Proof.
  induction l as [|x t IH]; intros off s n Hoff Hc Hin Hn; [destruct Hin|].
  destruct Hc as [H1 [H2 H3]]. cbn [flat_map].
  destruct Hin as [->|Hin].
  - rewrite nth_error_repeat_app by lia. reflexivity.
  - destruct (contig_range t _ s H3 Hin) as [R1 [R2 R3]].
    rewrite nth_error_repeat_app2 by lia.
    rewrite <- (IH (off + sl_bits x) s n) by (auto; lia). f_equal. lia.
Qed.

Lemma bit2field_slot s n : In s layout -> 2 * sl_off s <= n < 2 * sl_off s + 2 * sl_bits s ->
  bit2field_at n = Some (Some s).
Proof.
  intros Hs Hn. unfold bit2field_at, bit2field_list_def. destruct (slot_range s Hs) as [R1 [R2 R3]].
  assert (HEP : 0 <= extra_padding) by (rewrite extra_padding_val; lia).
  rewrite nth_error_repeat_app2 by lia.
  rewrite <- (flat_repeat_at layout extra_padding s n HEP layout_contig Hs Hn). f_equal. lia.
Qed.

Lemma bit2field_padding n : 0 <= n < 2 * extra_padding -> bit2field_at n = Some None.
Proof.
  intros Hn. unfold bit2field_at, bit2field_list_def. rewrite nth_error_repeat_app by lia. reflexivity.
Qed.

Section Loop.
  Variable wc : Z.
  Hypothesis Hr : wc_range wc.

  Lemma above_zero z : 2 * NB <= z -> Z.testbit wc z = false.
  Proof. intros. apply (proj1 (wc_range_bits wc ltac:(apply Hr)) Hr). lia. Qed.

  Lemma scan_from o : 0 <= o <= 2 * NB ->
    exists o', bit_scan0 SCAN_FUEL wc o = Ok o' /\ o <= o' /\ Z.testbit wc o' = false /\
    forall n, o <= n < o' -> Z.testbit wc n = true.
  Proof.
    intros Ho. apply bit_scan0_ok; [lia|]. exists (2 * NB). repeat split; try lia.
    - unfold SCAN_FUEL. rewrite NB16. assert (H := NB_pos). lia.
    - apply above_zero. lia.
  Qed.

  Lemma loop_ok rest : forall B o fuel,
    contig B rest -> B + total rest = NB -> (forall s, In s rest -> In s layout) -> 0 <= B ->
    (List.length rest <= fuel)%nat ->
    2 * B <= o -> Z.testbit wc o = false -> (forall n, 2 * B <= n < o -> Z.testbit wc n = true) ->
    wc_to_fields_loop fuel wc o = Ok (flat_map (extract wc) rest).
  Proof.
    induction rest as [|s rest IH]; intros B o fuel Hc Ht Hin HB Hf Ho Hz Hones.
    - cbn [total] in Ht. cbn [flat_map]. destruct fuel; cbn [wc_to_fields_loop]; rewrite NB16;
      replace (2 * NB <=? o) with true by lia; reflexivity.
    - destruct Hc as [H1 [H2 H3]]. cbn [total] in Ht. cbn [List.length] in Hf. cbn [flat_map].
      assert (HsL : In s layout) by (apply Hin; now left).
      destruct (slot_range s HsL) as [R1 [R2 R3]].
      destruct (Z_lt_ge_dec o (2 * B + 2 * sl_bits s)) as [Hl|Hg].
      + destruct fuel as [|fuel]; [lia|]. cbn [wc_to_fields_loop]. rewrite NB16.
        replace (2 * NB <=? o) with false by lia.
        rewrite (bit2field_slot s o HsL) by lia.
        fold (slice wc s).
        destruct (Z.eqb_spec (slice wc s) (Z.shiftl 1 (sl_bits s * 2) - 1)) as [E|NE].
        { exfalso. rewrite slice_full in E by lia. rewrite E in Hz by lia. discriminate. }
        rewrite RMorton_slice by lia. cbn [rbind].
        destruct (scan_from (sl_off s * 2 + sl_bits s * 2) ltac:(lia)) as [o' [-> [O1 [O2 O3]]]].
        cbn [rbind].
        rewrite (IH (B + sl_bits s) o' fuel); auto; try lia.
        * intros x Hx. apply Hin. now right.
        * intros n Hn. apply O3. lia.
      + rewrite (extract_full wc s) by (try lia; intros n Hn; apply Hones; lia). cbn [app].
        apply (IH (B + sl_bits s)); auto; try lia.
        * intros x Hx. apply Hin. now right.
        * intros n Hn. apply Hones. lia.
  Qed.
End Loop.

Lemma to_fields_ok wc : wc_range wc -> padding_open wc ->
  flow_wildcard_to_fields wc = Ok (flat_map (extract wc) layout).
Proof.
  intros Hr Hp. unfold flow_wildcard_to_fields.
  assert (HN := NB_pos). assert (HEP : 0 <= extra_padding) by (rewrite extra_padding_val; lia).
  destruct (scan_from wc Hr 0 ltac:(lia)) as [o [-> [O1 [O2 O3]]]]. cbn [rbind].
  assert (2 * extra_padding <= o).
  { destruct (Z_lt_ge_dec o (2 * extra_padding)); [|lia]. rewrite Hp in O2 by lia. discriminate. }
  apply (loop_ok wc Hr layout extra_padding o (List.length layout) layout_contig layout_total
           (fun s H => H) HEP (le_n _)); [lia|auto|].
  intros n Hn. apply O3. lia.
Qed.

(** Padding that is not open makes the conversion fail. *)
Lemma to_fields_padding_fails wc : wc_range wc -> ~ padding_open wc ->
  flow_wildcard_to_fields wc = Err KeyError.
Proof.
  intros Hr Hp. unfold flow_wildcard_to_fields.
  assert (HN := NB_pos). assert (HEP : 0 <= extra_padding) by (rewrite extra_padding_val; lia).
  destruct (scan_from wc Hr 0 ltac:(lia)) as [o [-> [O1 [O2 O3]]]]. cbn [rbind].
  assert (Ho : o < 2 * extra_padding).
  { destruct (Z_lt_ge_dec o (2 * extra_padding)); [lia|]. exfalso. apply Hp. intros b Hb. apply O3. lia. }
  assert (HEN : extra_padding < NB) by (rewrite extra_padding_val, NB_val; lia).
  replace (List.length layout) with (S (pred (List.length layout))) by reflexivity.
  cbn [wc_to_fields_loop]. rewrite NB16. replace (2 * NB <=? o) with false by lia.
  rewrite bit2field_padding by lia. reflexivity.
Qed.

(** Canonical shape of the produced items. *)
Lemma ev_od_facts wc s : 0 < sl_bits s ->
  let a := ev wc s in let b := od wc s in
  0 <= a < 2 ^ sl_bits s /\ 0 <= b < 2 ^ sl_bits s /\
  (forall i, 0 <= i < sl_bits s -> Z.testbit a i = Z.testbit wc (2 * (sl_off s + i)) /\
                                   Z.testbit b i = Z.testbit wc (2 * (sl_off s + i) + 1)).
Proof.
  intros Hb. cbn zeta. unfold ev, od.
  destruct (from_bits_ok (fun j => Z.testbit wc (2 * (sl_off s + j))) (Z.to_nat (sl_bits s))) as [E0 HE].
  destruct (from_bits_ok (fun j => Z.testbit wc (2 * (sl_off s + j) + 1)) (Z.to_nat (sl_bits s))) as [O0 HO].
  rewrite Z2Nat.id in * by lia. repeat split; auto.
  - apply small_of_bits; auto; [lia|]. intros n Hn. rewrite HE by lia. replace (n <? sl_bits s) with false by lia. reflexivity.
  - apply small_of_bits; auto; [lia|]. intros n Hn. rewrite HO by lia. replace (n <? sl_bits s) with false by lia. reflexivity.
  - rewrite HE by lia. replace (i <? sl_bits s) with true by lia. reflexivity.
  - rewrite HO by lia. replace (i <? sl_bits s) with true by lia. reflexivity.
Qed.

Lemma lxor_bound a b w : 0 <= w -> 0 <= a < 2 ^ w -> 0 <= b < 2 ^ w -> 0 <= Z.lxor a b < 2 ^ w.
Proof.
  intros Hw Ha Hb. assert (0 <= Z.lxor a b) by (apply Z.lxor_nonneg; lia). split; auto.
  apply small_of_bits; auto. intros n Hn. rewrite Z.lxor_spec, (testbit_small a w), (testbit_small b w) by lia. reflexivity.
Qed.
Lemma land_bound a b w : 0 <= w -> 0 <= a < 2 ^ w -> 0 <= b -> 0 <= Z.land a b < 2 ^ w.
Proof.
  intros Hw Ha Hb. assert (0 <= Z.land a b) by (apply Z.land_nonneg; lia). split; auto.
  apply small_of_bits; auto. intros n Hn. rewrite Z.land_spec, (testbit_small a w) by lia. reflexivity.
Qed.

Lemma extract_names wc s it : In it (extract wc s) -> fst it = sl_name s.
Proof.
  unfold extract. destruct (_ =? 0); [intros []|]. destruct (_ =? _); intros [<-|[]]; reflexivity.
Qed.

Lemma extract_canonical wc s it : In s layout -> In it (extract wc s) -> item_canonical it.
Proof.
  intros Hs Hit. destruct (slot_range s Hs) as [R1 [R2 R3]].
  destruct (ev_od_facts wc s R2) as [Ra [Rb Hb]]. unfold extract in Hit.
  assert (Rx := lxor_bound (ev wc s) (od wc s) (sl_bits s) ltac:(lia) Ra Rb).
  assert (Rv := land_bound (od wc s) (Z.lxor (ev wc s) (od wc s)) (sl_bits s) ltac:(lia) Rb ltac:(lia)).
  exists s. split; [auto|].
  destruct (Z.eqb_spec (Z.lxor (ev wc s) (od wc s)) 0) as [E0|N0]; [destruct Hit|].
  destruct (Z.eqb_spec (Z.lxor (ev wc s) (od wc s)) (Z.shiftl 1 (sl_bits s) - 1)) as [E1|N1];
    destruct Hit as [<-|[]]; cbn [fst snd]; (split; [reflexivity|]); [lia|].
  rewrite Z.shiftl_1_l in N1. repeat split; try lia.
  apply Z.bits_inj'. intros n Hn. rewrite !Z.land_spec. destruct (Z.testbit (od wc s) n), (Z.testbit (Z.lxor _ _) n); reflexivity.
Qed.

Lemma flat_extract_nodup wc : forall l, NoDup (map sl_name l) -> NoDup (map fst (flat_map (extract wc) l)).
Proof.
  induction l as [|s t IH]; intros ND; cbn; [constructor|].
  cbn in ND. inversion ND as [|? ? Hn HND]; subst. rewrite map_app.
  assert (Hnot : ~ In (sl_name s) (map fst (flat_map (extract wc) t))).
  { intros H. apply in_map_iff in H as [it [E Hit]]. apply in_flat_map in Hit as [s' [Hs' Hit]].
    apply extract_names in Hit. apply Hn. rewrite <- E, Hit. now apply in_map. }
  specialize (IH HND). unfold extract at 1.
  destruct (_ =? 0); [exact IH|]. destruct (_ =? _); cbn; constructor; auto.
Qed.

Lemma extract_item_bit wc s n : In s layout -> zfree wc ->
  2 * sl_off s <= n < 2 * sl_off s + 2 * sl_bits s ->
  forallb (fun it => item_bit it n) (extract wc s) = Z.testbit wc n.
Proof.
  intros Hs Hz Hn. destruct (slot_range s Hs) as [R1 [R2 R3]].
  assert (HEP : 0 <= extra_padding) by (rewrite extra_padding_val; lia).
  destruct (ev_od_facts wc s R2) as [Ra [Rb Hb]].
  set (j := n / 2 - sl_off s). assert (Hj : 0 <= j < sl_bits s) by lia.
  destruct (Hb j Hj) as [Ea Eb]. specialize (Hz (sl_off s + j) ltac:(lia)).
  rewrite <- Ea, <- Eb in Hz.
  assert (Hwn : Z.testbit wc n = if Z.even n then Z.testbit (ev wc s) j else Z.testbit (od wc s) j).
  { destruct (Z.even n) eqn:Ev.
    - apply Z.even_spec in Ev as [k ->]. rewrite Ea. f_equal. lia.
    - assert (Od : Z.odd n = true) by (rewrite <- Z.negb_even, Ev; reflexivity).
      apply Z.odd_spec in Od as [k ->]. rewrite Eb. f_equal. lia. }
  rewrite Hwn. clear Hwn Ea Eb Hb. unfold extract.
  assert (Hx : Z.testbit (Z.lxor (ev wc s) (od wc s)) j = xorb (Z.testbit (ev wc s) j) (Z.testbit (od wc s) j))
    by apply Z.lxor_spec.
  destruct (layout_lookup s Hs) as [A B].
  destruct (Z.eqb_spec (Z.lxor (ev wc s) (od wc s)) 0) as [E0|N0].
  { cbn [forallb]. rewrite E0, Z.bits_0 in Hx.
    destruct (Z.testbit (ev wc s) j), (Z.testbit (od wc s) j), (Z.even n), Hz; cbn in *; congruence. }
  destruct (Z.eqb_spec (Z.lxor (ev wc s) (od wc s)) (Z.shiftl 1 (sl_bits s) - 1)) as [E1|N1].
  - cbn [forallb item_bit]. rewrite A, B. replace ((2 * sl_off s <=? n) && _) with true by lia.
    fold j. cbn [mask_bit]. rewrite Z.land_spec, Hx.
    assert (Hx1 : xorb (Z.testbit (ev wc s) j) (Z.testbit (od wc s) j) = true).
    { rewrite <- Hx, E1, ones_shiftl, ones_testbit by lia. lia. }
    destruct (Z.testbit (ev wc s) j), (Z.testbit (od wc s) j), (Z.even n); cbn in *; congruence.
  - cbn [forallb item_bit]. rewrite A, B. replace ((2 * sl_off s <=? n) && _) with true by lia.
    fold j. cbn [mask_bit]. rewrite Z.land_spec, Hx.
    destruct (Z.testbit (ev wc s) j), (Z.testbit (od wc s) j), (Z.even n), Hz; cbn in *; congruence.
Qed.

Lemma flat_extract_item_bit wc n s : forall l,
  (forall x, In x l -> In x layout) -> NoDup l -> zfree wc -> In s layout ->
  2 * sl_off s <= n < 2 * sl_off s + 2 * sl_bits s ->
  forallb (fun it => item_bit it n) (flat_map (extract wc) l) =
  (if existsb (fun x => String.eqb (sl_name x) (sl_name s)) l then Z.testbit wc n else true).
Proof.
  intros l. induction l as [|x t IH]; intros Hin ND Hz Hs Hn; [reflexivity|].
  cbn [flat_map existsb]. rewrite forallb_app. inversion ND as [|? ? Hnx HND]; subst.
  rewrite IH by (auto; intros y Hy; apply Hin; now right).
  destruct (String.eqb_spec (sl_name x) (sl_name s)) as [E|NE].
  - assert (x = s) as -> by (apply slot_name_inj; auto; apply Hin; now left).
    rewrite extract_item_bit by auto. cbn [orb].
    destruct (existsb _ t) eqn:Et; [|now rewrite andb_true_r].
    destruct (Z.testbit wc n); reflexivity.
  - cbn [orb]. replace (forallb (fun it => item_bit it n) (extract wc x)) with true; [reflexivity|].
    symmetry. apply forallb_forall. intros it Hit. apply extract_names in Hit.
    assert (HxL : In x layout) by (apply Hin; now left).
    apply item_bit_slot with x; auto.
    destruct (slot_disjoint s x Hs HxL) as [->|D]; [congruence|]. lia.
Qed.

Lemma round_trip wc : wc_ok wc -> padding_open wc ->
  exists fields, flow_wildcard_to_fields wc = Ok fields /\
    flow_matches_to_wildcard fields = Ok wc /\
    NoDup (map fst fields) /\ (forall it, In it fields -> item_canonical it).
Proof.
  intros [Hr Hz] Hp. exists (flat_map (extract wc) layout). split; [now apply to_fields_ok|].
  assert (HN := NB_pos). assert (HEP : 0 <= extra_padding) by (rewrite extra_padding_val; lia).
  split; [|split].
  - destruct (flow_matches_to_wildcard_bits (flat_map (extract wc) layout)) as [w [-> [W0 HW]]].
    f_equal. apply Z.bits_inj'. intros n Hn. rewrite HW by lia.
    destruct (Z.ltb_spec n (2 * NB)) as [Hl|Hg].
    + cbn [andb]. destruct (Z_lt_ge_dec n (2 * extra_padding)) as [Hpad|Hnp].
      * rewrite (Hp n) by lia. apply forallb_forall. intros it Hit.
        apply in_flat_map in Hit as [s [Hs Hit]]. apply extract_names in Hit.
        apply item_bit_slot with s; auto. left. destruct (slot_range s Hs). lia.
      * destruct (slot_cover (n / 2) ltac:(lia)) as [s [Hs Hrs]].
        rewrite (flat_extract_item_bit wc n s); auto; try lia.
        -- replace (existsb _ layout) with true; [reflexivity|]. symmetry.
           apply existsb_exists. exists s. split; auto. apply String.eqb_refl.
        -- apply (NoDup_map_inv sl_name). apply layout_names_nodup.
    + cbn. symmetry. apply (proj1 (wc_range_bits wc ltac:(apply Hr)) Hr). lia.
  - apply flat_extract_nodup. apply layout_names_nodup.
  - intros it Hit. apply in_flat_map in Hit as [s [Hs Hit]]. eapply extract_canonical; eauto.
Qed.
