(** Theorems for C71 (compressing a list of wildcards) and C72 (the text of a wildcard). *)
From Coq Require Import Lia ZifyBool ZifyNat.
From Verif Require Import WildcardProofs MatchWcProofs HSProofs HsString HsStringProofs.
Local Open Scope string_scope.
Local Open Scope list_scope.
Local Open Scope Z_scope.
Local Opaque NB WC_FULLWC layout oxm_fields.

(** ** C71 *)
(** all pairs of elements at different positions *)
Definition pairwise {A} (P : A -> A -> Prop) (l : list A) : Prop :=
  forall i j x y, i <> j -> nth_error l i = Some x -> nth_error l j = Some y -> P x y.
Inductive sublist {A} : list A -> list A -> Prop :=
| sub_nil : sublist [] []
| sub_keep x l r : sublist l r -> sublist (x :: l) (x :: r)
| sub_drop x l r : sublist l r -> sublist l (x :: r).

Lemma cwl_inner_keep i x : forall rest j n y, nth_error rest n = Some y -> 
  (wildcard_is_subset x y = true -> In i (cwl_inner i x j rest)) /\
  (wildcard_is_subset x y = false -> wildcard_is_subset y x = true -> In (j + n)%nat (cwl_inner i x j rest)).
Proof.
  induction rest as [|z rest IH]; intros j n y E; [now destruct n|]. cbn [cwl_inner]. rewrite !in_app_iff. destruct n as [|n].
  - injection E as ->. rewrite Nat.add_0_r. split; [intros ->; left; now left|]. intros -> ->. left. now left.
  - cbn in E. destruct (IH (S j) n y E) as [A B]. replace (j + S n)%nat with (S j + n)%nat by lia. auto.
Qed.
Lemma cwl_outer_keep : forall l i a b x y, (a < b)%nat -> nth_error l a = Some x -> nth_error l b = Some y ->
  (wildcard_is_subset x y = true -> In (i + a)%nat (cwl_outer i l)) /\
  (wildcard_is_subset x y = false -> wildcard_is_subset y x = true -> In (i + b)%nat (cwl_outer i l)).
Proof.
  induction l as [|z l IH]; intros i a b x y Lt Ea Eb; [now destruct a|]. cbn [cwl_outer]. rewrite !in_app_iff. destruct b as [|b]; [lia|]. destruct a as [|a].
  - injection Ea as ->. cbn in Eb. destruct (cwl_inner_keep i x l (S i) b y Eb) as [A B]. rewrite Nat.add_0_r. replace (i + S b)%nat with (S i + b)%nat by lia. auto.
  - cbn in Ea, Eb. destruct (IH (S i) a b x y ltac:(lia) Ea Eb) as [A B]. replace (i + S a)%nat with (S i + a)%nat by lia. replace (i + S b)%nat with (S i + b)%nat by lia. auto.
Qed.
(** the kept elements with their positions *)
Fixpoint kept (pop : list nat) (k : nat) (l : list Z) : list (nat * Z) :=
  match l with [] => [] | x :: r => if existsb (Nat.eqb k) pop then kept pop (S k) r else (k, x) :: kept pop (S k) r end.
Lemma kept_filter pop : forall l k, map snd (kept pop k l) = cwl_filter pop k l.
Proof. induction l as [|x l IH]; intros k; cbn [kept cwl_filter]; [auto|]. destruct (existsb _ pop); cbn [map snd]; now rewrite IH. Qed.
Lemma kept_in pop : forall l k n x, In (n, x) (kept pop k l) -> (k <= n)%nat /\ nth_error l (n - k) = Some x /\ ~ In n pop.
Proof.
  assert (E : forall k, existsb (Nat.eqb k) pop = true <-> In k pop).
  { intros k. rewrite existsb_exists. split; [intros [y [Hy E]]; apply Nat.eqb_eq in E; now subst|]. intros H. exists k. split; auto. apply Nat.eqb_refl. }
  induction l as [|y l IH]; intros k n x H; cbn [kept] in H; [destruct H|].
  assert (X : In (n, x) (kept pop (S k) l) -> (k <= n)%nat /\ nth_error (y :: l) (n - k) = Some x /\ ~ In n pop).
  { intros X. apply IH in X as (A & B & C). split; [lia|]. split; [|auto]. replace (n - k)%nat with (S (n - S k)) by lia. exact B. }
  destruct (existsb (Nat.eqb k) pop) eqn:Ek; [auto|]. destruct H as [H|H]; [|auto]. injection H as <- <-. split; [lia|]. rewrite Nat.sub_diag. split; [reflexivity|]. rewrite <- E. congruence.
Qed.
Lemma kept_nodup pop : forall l k, NoDup (map fst (kept pop k l)).
Proof.
  induction l as [|x l IH]; intros k; cbn [kept]; [constructor|]. destruct (existsb _ pop); [auto|]. cbn [map fst]. constructor; [|auto].
  intros H. apply in_map_iff in H as ([n y] & <- & H). apply kept_in in H. cbn [fst] in H. lia.
Qed.
Lemma filter_sublist pop : forall l k, sublist (cwl_filter pop k l) l.
Proof. induction l as [|x l IH]; intros k; cbn [cwl_filter]; [constructor|]. destruct (existsb _ pop); constructor; auto. Qed.

(** What is left is a sublist, matches the same packets together, and no element matches a subset
    of the packets of another one. *)
Theorem C71_compress_wildcard_list : forall l, (forall x, In x l -> wc_ok x) ->
  sublist (compress_wildcard_list l) l /\
  (forall p, (exists x, In x (compress_wildcard_list l) /\ accepts x p) <-> (exists x, In x l /\ accepts x p)) /\
  pairwise (fun x y => exists p, accepts x p /\ ~ accepts y p) (compress_wildcard_list l).
Proof.
  intros l Hok. split; [apply filter_sublist|]. split.
  - intros p. split; [intros (x & Hx & Ha); exists x; split; [now apply compress_sub|auto]|]. apply compress_covers. intros x Hx. destruct (Hok x Hx) as [[R _] _]. lia.
  - intros i j x y Nij Ei Ej. unfold compress_wildcard_list in Ei, Ej. rewrite <- kept_filter, nth_error_map in Ei, Ej.
    set (ks := kept (cwl_outer 0 l) 0 l) in *. destruct (nth_error ks i) as [[a x']|] eqn:Ki; [|discriminate]. destruct (nth_error ks j) as [[b y']|] eqn:Kj; [|discriminate].
    cbn in Ei, Ej. injection Ei as ->. injection Ej as ->.
    assert (Nab : a <> b).
    { intros ->. apply Nij. assert (N := kept_nodup (cwl_outer 0 l) l 0%nat). fold ks in N. rewrite NoDup_nth_error in N. apply N.
      - rewrite map_length. apply nth_error_Some. congruence.
      - rewrite !nth_error_map, Ki, Kj. reflexivity. }
    destruct (kept_in _ _ _ _ _ (nth_error_In _ _ Ki)) as (_ & Ea & Pa), (kept_in _ _ _ _ _ (nth_error_In _ _ Kj)) as (_ & Eb & Pb). rewrite Nat.sub_0_r in Ea, Eb.
    assert (Sub : wildcard_is_subset x y = false).
    { destruct (wildcard_is_subset x y) eqn:E; [|auto]. exfalso. destruct (Nat.lt_gt_cases a b) as [X _]. destruct (X Nab) as [Lt|Lt].
      - destruct (cwl_outer_keep l 0%nat a b x y Lt Ea Eb) as [A _]. auto.
      - destruct (cwl_outer_keep l 0%nat b a y x Lt Eb Ea) as [A B]. destruct (wildcard_is_subset y x) eqn:E'; auto. }
    assert (Hx : wc_ok x) by (apply Hok; eapply nth_error_In; eauto).
    unfold wildcard_is_subset in Sub. apply Z.eqb_neq in Sub. destruct Hx as [Hr Hz].
    set (d := Z.land x (Z.lnot y)) in *. assert (Hd : 0 < d) by (assert (0 <= d) by (apply Z.land_nonneg; left; apply Hr); lia).
    assert (Bd := Z.bit_log2 d Hd). assert (Hn := Z.log2_nonneg d). set (n := Z.log2 d) in *. unfold d in Bd. rewrite Z.land_spec, Z.lnot_spec in Bd by lia. apply andb_true_iff in Bd as [Bx By].
    assert (Ln : n < 2 * NB).
    { destruct (Z_lt_ge_dec n (2 * NB)) as [|Ge]; [auto|]. rewrite (proj1 (wc_range_bits x ltac:(apply Hr)) Hr) in Bx by lia. discriminate Bx. }
    destruct (bit_split n ltac:(lia)) as (k & v & Hk & En). rewrite En in Bx, By. destruct (zfree_pick x k v Hz Hk Bx) as (p & Hp & Hv).
    exists p. split; [auto|]. intros Hy. specialize (Hy k Hk). rewrite Hv in Hy. rewrite Hy in By. discriminate By.
Qed.

(** ** C72 *)
(** One part "NAME=tbits" for each field, from the last field to the first. *)
Theorem C72_to_string : forall w, wc_ok w -> padding_open w ->
  exists parts, flow_wildcard_to_string w = Ok (String.concat ", " parts) /\ Forall2 (shows w) layout parts.
Proof.
  intros w Hw Hp. unfold flow_wildcard_to_string. rewrite tint_ok by auto. cbn [rbind].
  destruct (fields_ok w Hw layout extra_padding) as (res & E & F); [rewrite extra_padding_val; lia|apply layout_chained|]. rewrite E. cbn [rbind]. eauto.
Qed.
(** The text determines the wildcard. *)
Theorem C72_injective : forall a b t, wc_ok a -> padding_open a -> wc_ok b -> padding_open b ->
  flow_wildcard_to_string a = Ok t -> flow_wildcard_to_string b = Ok t -> a = b.
Proof.
  intros a b t Ha Pa Hb Pb Ea Eb. destruct (C72_to_string a Ha Pa) as (pa & Xa & Fa), (C72_to_string b Hb Pb) as (pb & Xb & Fb).
  rewrite Ea in Xa. rewrite Eb in Xb. injection Xa as ->. injection Xb as Xb.
  assert (E : pa = pb).
  { apply (concat_inj ", "); [|auto]. clear - Fa Fb. revert pb Fb. induction Fa as [|s x fs pa Hx Fa IH]; intros pb Fb; inversion Fb as [|s' y fs' pb' Hy Fb']; subst; constructor; [|auto].
    eapply shows_length; eauto. }
  subst pb. apply same_bits; [apply Ha|apply Hb|auto|auto|]. intros i Hi.
  destruct (chained_find layout extra_padding i layout_chained Hi) as (s & Hs & Hp & Hj).
  assert (exists x, shows a s x /\ shows b s x) as (x & Sa & Sb).
  { clear - Fa Fb Hs. revert Hs Fb. induction Fa as [|s' x fs pa Hx Fa IH]; intros Hs Fb; [destruct Hs|]. inversion Fb as [|s2 y fs' pb' Hy Fb']; subst.
    destruct Hs as [->|Hs]; [eauto|auto]. }
  replace i with (sl_off s + (i - sl_off s)) by lia. eapply shows_same; eauto.
Qed.
(** A padding tbit that is not x is noticed. *)
Theorem C72_padding : forall w b, 0 <= w -> 0 <= b < 2 * extra_padding -> Z.testbit w b = false -> flow_wildcard_to_string w = Err AssertionError.
Proof.
  intros w b Hw Hb H. unfold flow_wildcard_to_string, wildcard_to_tint. destruct (Z.eqb_spec (Z.land (Z.shiftl 1 (extra_padding * 2) - 1) w) (Z.shiftl 1 (extra_padding * 2) - 1)) as [E|]; [|reflexivity].
  exfalso. apply (f_equal (fun z => Z.testbit z b)) in E. rewrite mask_bits in E by lia. rewrite H, andb_false_r in E.
  replace (Z.shiftl 1 (extra_padding * 2) - 1) with (Z.ones (extra_padding * 2)) in E by (unfold Z.ones; lia). rewrite Z.ones_spec_low in E by lia. discriminate E.
Qed.
(** A tbit z below one of the same field that is not z is noticed. *)
Lemma parts_ends n : forall v acc, 0 <= v < 4 ^ Z.of_nat n -> (exists t, parts_string n v acc = Ok t) \/ parts_string n v acc = Err AssertionError.
Proof.
  induction n as [|n IH]; intros v acc Hv; cbn [parts_string].
  - change (4 ^ Z.of_nat 0) with 1 in Hv. assert (v = 0) by lia. subst. left. eexists. reflexivity.
  - destruct (v =? 0); [left; eexists; reflexivity|]. destruct (_ =? 0); [auto|]. apply IH. rewrite Z.shiftr_div_pow2 by lia. change (2 ^ 2) with 4.
    rewrite Nat2Z.inj_succ, Z.pow_succ_r in Hv by lia. split; [apply Z.div_pos; lia|apply Z.div_lt_upper_bound; lia].
Qed.
Lemma fields_end : forall fs off w, 0 <= off -> chained fs off -> (exists t, fields_strings fs w = Ok t) \/ fields_strings fs w = Err AssertionError.
Proof.
  induction fs as [|s fs IH]; intros off w Ho C; cbn [fields_strings]; [left; eexists; reflexivity|]. destruct C as (_ & Hb & C).
  destruct (parts_ends (Z.to_nat (sl_bits s)) (Z.land (Z.shiftl 1 (sl_bits s * 2) - 1) w) "") as [(t & ->)| ->]; [rewrite Z2Nat.id by lia; apply field_value_range; lia| |auto].
  cbn [rbind]. destruct (IH (off + sl_bits s) (Z.shiftr w (sl_bits s * 2))) as [(l & ->)| ->]; [lia|auto| |auto]. left. eexists. reflexivity.
Qed.
Lemma fields_z w s i j : 0 <= w -> 0 <= i < j -> j < sl_bits s -> tchar w (sl_off s + i) = "z"%char -> tchar w (sl_off s + j) <> "z"%char ->
  forall fs off, 0 <= off -> chained fs off -> In s fs -> fields_strings fs (Z.shiftr w (2 * off)) = Err AssertionError.
Proof.
  intros Hw Hi Hj Zi Zj. induction fs as [|s' fs IH]; intros off Ho C Hs; [destruct Hs|]. cbn [fields_strings]. destruct C as (Eo & Hb & C).
  set (v := Z.land (Z.shiftl 1 (sl_bits s' * 2) - 1) (Z.shiftr w (2 * off))).
  assert (Hv : 0 <= v < 4 ^ sl_bits s') by (apply field_value_range; lia). destruct Hs as [->|Hs].
  - assert (Bits : forall k, 0 <= k < 2 * sl_bits s -> Z.testbit v k = Z.testbit w (2 * off + k)).
    { intros k Hk. unfold v. rewrite mask_bits by lia. replace (k <? sl_bits s * 2) with true by lia. cbn [andb]. rewrite Z.shiftr_spec by lia. f_equal. lia. }
    rewrite Eo in Zi, Zj. unfold tchar in Zi, Zj. replace (2 * (off + i)) with (2 * off + 2 * i) in Zi by lia. replace (2 * off + 2 * i + 1) with (2 * off + (2 * i + 1)) in Zi by lia.
    replace (2 * (off + j)) with (2 * off + 2 * j) in Zj by lia. replace (2 * off + 2 * j + 1) with (2 * off + (2 * j + 1)) in Zj by lia.
    rewrite <- !Bits in Zi by lia. rewrite <- !Bits in Zj by lia. rewrite (parts_z _ _ _ i); [reflexivity|lia|lia| |].
    + intros [X|X]; rewrite X in Zi; [destruct (Z.testbit v (2 * i + 1)); discriminate|destruct (Z.testbit v (2 * i)); discriminate].
    + intros X. apply Zj. assert (Y : forall k, 2 * i <= k -> Z.testbit v k = false) by (intros k Hk; replace k with (k - 2 * i + 2 * i) by lia; rewrite <- Z.shiftr_spec by lia; rewrite X; apply Z.bits_0).
      rewrite !Y by lia. reflexivity.
  - destruct (parts_ends (Z.to_nat (sl_bits s')) v "") as [(t & ->)| ->]; [rewrite Z2Nat.id by lia; exact Hv| |reflexivity]. cbn [rbind].
    rewrite Z.shiftr_shiftr by lia. replace (2 * off + sl_bits s' * 2) with (2 * (off + sl_bits s')) by lia. rewrite IH; [reflexivity|lia|auto|auto].
Qed.
Theorem C72_z_partial : forall w s i j, 0 <= w -> In s layout -> 0 <= i < j -> j < sl_bits s ->
  tchar w (sl_off s + i) = "z"%char -> tchar w (sl_off s + j) <> "z"%char -> flow_wildcard_to_string w = Err AssertionError.
Proof.
  intros w s i j Hw Hs Hi Hj Zi Zj. unfold flow_wildcard_to_string, wildcard_to_tint. destruct (_ =? _); [|reflexivity]. cbn [rbind].
  rewrite (Z.mul_comm extra_padding 2), (fields_z w s i j); auto; [rewrite extra_padding_val; lia|apply layout_chained].
Qed.
(** "assert part": no tbit z should get through. It does if nothing but z is above it in its
    field; the field then has a character too few. *)
Theorem C72_z_refuted : exists w t, wc_range w /\ padding_open w /\ ~ zfree w /\ flow_wildcard_to_string w = Ok t.
Proof.
  exists (Z.ones (2 * 1583)). eexists. split; [|split; [|split]].
  - split; [vm_compute; discriminate|vm_compute; reflexivity].
  - intros b Hb. rewrite extra_padding_val in Hb. apply Z.ones_spec_low. lia.
  - intros H. destruct (H 1583) as [X|X]; [rewrite NB_val; lia|rewrite Z.ones_spec_high in X by lia; discriminate X|rewrite Z.ones_spec_high in X by lia; discriminate X].
  - Transparent NB WC_FULLWC layout oxm_fields. vm_compute. reflexivity.
Qed.

(** *** Examples *)
(** x1..., x0..., a copy of the first and everything *)
Definition ex71 (k : nat) : Z := match k with
  | 0%nat => Z.ldiff WC_FULLWC (Z.shiftl 1 (2 * 1583))       (* the first tbit is 1 *)
  | 1%nat => Z.ldiff WC_FULLWC (Z.shiftl 1 (2 * 1583 + 1))   (* the first tbit is 0 *)
  | _ => Z.ldiff (Z.ldiff WC_FULLWC (Z.shiftl 1 (2 * 1583))) (Z.shiftl 1 (2 * 40)) end. (* the first and another one are 1 *)
Example C71_ex : (forall x, In x [ex71 0; ex71 2; ex71 1; ex71 0] -> wc_ok x) /\ compress_wildcard_list [ex71 0; ex71 2; ex71 1; ex71 0] = [ex71 1; ex71 0].
Proof.
  split; [|vm_compute; reflexivity]. intros x [<-|[<-|[<-|[<-|[]]]]]; apply wc_okb_ok; vm_compute; reflexivity.
Qed.
Example C72_ex : wc_ok (ex71 0) /\ padding_open (ex71 0) /\ exists t, flow_wildcard_to_string (ex71 0) = Ok t /\
  substring (String.length t - 40) 40 t = "IN_PORT=1xxxxxxxxxxxxxxxxxxxxxxxxxxxxxxx".
Proof.
  split; [apply wc_okb_ok; vm_compute; reflexivity|]. split.
  - intros b Hb. rewrite extra_padding_val in Hb. assert (b = 0 \/ b = 1 \/ b = 2 \/ b = 3 \/ b = 4 \/ b = 5) as [->|[->|[->|[->|[->| ->]]]]] by lia; vm_compute; reflexivity.
  - eexists. split; vm_compute; reflexivity.
Qed.
Example C72_ex_z : let w := Z.ldiff WC_FULLWC (Z.shiftl 3 (2 * 5)) in exists s, In s layout /\ sl_name s = "PBB_ISID2" /\
  tchar w (sl_off s + 2) = "z"%char /\ tchar w (sl_off s + 3) <> "z"%char /\ flow_wildcard_to_string w = Err AssertionError.
Proof. eexists. split; [left; reflexivity|]. split; [reflexivity|]. split; [vm_compute; reflexivity|]. split; [vm_compute; discriminate|vm_compute; reflexivity]. Qed.

Print Assumptions C71_compress_wildcard_list.
Print Assumptions C72_to_string.
Print Assumptions C72_injective.
Print Assumptions C72_padding.
Print Assumptions C72_z_partial.
Print Assumptions C72_z_refuted.
