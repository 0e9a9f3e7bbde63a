(** Proofs for C52, C54, C55, C64, C65: numbers as text. *)
From Coq Require Import ZifyBool ZifyNat ZifyN.
From Verif Require Import SpecText Format.
Local Open Scope list_scope.
Local Open Scope Z_scope.

(** ** Characters *)
Lemma ord_chr n : 0 <= n < 256 -> ord (chr n) = n.
Proof. intros H. unfold ord, chr. rewrite N_ascii_embedding by lia. lia. Qed.
Lemma ord_range c : 0 <= ord c < 256.
Proof. unfold ord. pose proof (N_ascii_bounded c). lia. Qed.
Lemma ord_inj a b : ord a = ord b -> a = b.
Proof. unfold ord. intros H. apply (f_equal Z.to_N) in H. rewrite !N2Z.id in H. apply (f_equal ascii_of_N) in H. now rewrite !ascii_N_embedding in H. Qed.

Lemma table_sweep : forallb (fun cd => match digit_val (fst cd) with Some d => d =? snd cd | None => false end
    && negb (is_space (fst cd)) && (0 <=? snd cd) && (snd cd <? 16)
    && (48 <=? ord (fst cd)) && negb (ord (fst cd) =? 95) && negb (ord (fst cd) =? 58)
    && negb ((ord (fst cd) =? 120) || (ord (fst cd) =? 88) || (ord (fst cd) =? 111) || (ord (fst cd) =? 79))) digit_table = true.
Proof. vm_compute. reflexivity. Qed.
Lemma table_facts c d : In (c, d) digit_table ->
  digit_val c = Some d /\ is_space c = false /\ 0 <= d < 16 /\ 48 <= ord c /\ ord c <> 95 /\ ord c <> 58 /\
  ord c <> 120 /\ ord c <> 88 /\ ord c <> 111 /\ ord c <> 79.
Proof.
  intros H. pose proof (proj1 (forallb_forall _ _) table_sweep _ H) as E. cbn [fst snd] in E.
  rewrite !andb_true_iff, !negb_true_iff, !orb_false_iff in E. destruct (digit_val c) as [x|]; [|lia].
  assert (x = d) by lia. subst x. repeat (split; [try (reflexivity || lia || tauto)|]); try lia; tauto.
Qed.
Lemma digit_chr_sweep : forallb (fun d => existsb (fun cd => Ascii.eqb (fst cd) (digit_chr d) && (snd cd =? d)) digit_table) (seqZ 16) = true.
Proof. vm_compute. reflexivity. Qed.
Lemma digit_chr_table d : 0 <= d < 16 -> In (digit_chr d, d) digit_table.
Proof.
  intros H. pose proof (proj1 (forallb_seqZ _ _) digit_chr_sweep d ltac:(lia)) as E. cbv beta in E.
  apply existsb_exists in E as [[c x] [I1 E]]. cbn [fst snd] in E. apply andb_true_iff in E as [E1 E2].
  apply Ascii.eqb_eq in E1. assert (x = d) by lia. now subst.
Qed.
Lemma digit_chr_lower_sweep : forallb (fun d => negb (existsb (Ascii.eqb (digit_chr d)) ["A"; "B"; "C"; "D"; "E"; "F"]%char)) (seqZ 16) = true.
Proof. vm_compute. reflexivity. Qed.
Lemma digit_chr_lower d : 0 <= d < 16 -> ~ In (digit_chr d) ["A"; "B"; "C"; "D"; "E"; "F"]%char.
Proof.
  intros H J. pose proof (proj1 (forallb_seqZ _ _) digit_chr_lower_sweep d ltac:(lia)) as E. cbv beta in E.
  apply negb_true_iff in E. rewrite existsb_false in E. specialize (E _ J). now rewrite Ascii.eqb_refl in E.
Qed.

(** ** Digits *)
Definition digits_ok (base : Z) (l : list Z) : Prop := Forall (fun d => 0 <= d < base) l.
Lemma weigh_snoc base l d : weigh base (l ++ [d]) = weigh base l * base + d.
Proof. unfold weigh. rewrite fold_left_app. reflexivity. Qed.
Lemma numeral_digits base l : base <= 16 -> digits_ok base l -> l <> [] -> numeral base (map digit_chr l) (weigh base l).
Proof.
  intros B. induction l as [|d l IH] using rev_ind; [congruence|]. intros D _.
  apply Forall_app in D as [D1 D2]. inversion D2 as [|d' l' D3 D4]; subst. rewrite map_app, weigh_snoc. cbn [map].
  destruct l as [|x l].
  - cbn [map app weigh fold_left]. replace (0 * base + d) with d by lia. apply num_one; [apply digit_chr_table; lia|lia].
  - apply num_more; [apply IH; [auto|discriminate]|apply digit_chr_table; lia|lia].
Qed.

Lemma digits_fuel_spec fuel base : 2 <= base -> forall n acc, 0 <= n < 2 ^ Z.of_nat fuel -> exists l,
  digits_fuel fuel base n acc = l ++ acc /\ digits_ok base l /\ weigh base l = n /\
  (fuel <> O -> l <> []) /\ (n <> 0 -> hd 0 l <> 0) /\ (n = 0 -> (List.length l <= 1)%nat) /\
  (forall w, (1 <= w)%nat -> n < base ^ Z.of_nat w -> (List.length l <= w)%nat).
Proof.
  intros B. induction fuel as [|f IH]; intros n acc H.
  - exists []. cbn [digits_fuel app]. cbn in H. assert (n = 0) by lia. subst.
    split; [reflexivity|]. split; [constructor|]. split; [reflexivity|]. split; [congruence|]. split; [congruence|].
    split; cbn; lia.
  - cbn [digits_fuel]. destruct (n <? base) eqn:E.
    + exists [n]. split; [reflexivity|]. split; [repeat constructor; lia|]. split; [cbn; lia|]. split; [discriminate|].
      split; [cbn; auto|]. split; intros; cbn [List.length]; lia.
    + assert (Hn : 0 <= n / base < 2 ^ Z.of_nat f).
      { split; [apply Z.div_pos; lia|]. apply Z.div_lt_upper_bound; [lia|].
        rewrite Nat2Z.inj_succ, Z.pow_succ_r in H by lia. nia. }
      destruct (IH (n / base) (n mod base :: acc) Hn) as [l [E1 [E2 [E3 [E4 [E5 [E6 E7]]]]]]].
      pose proof (Z.div_mod n base ltac:(lia)). pose proof (Z.mod_pos_bound n base ltac:(lia)).
      assert (n / base <> 0) by (assert (1 <= n / base) by (apply Z.div_le_lower_bound; lia); lia).
      assert (l <> []). { intros ->. cbn in E3. lia. }
      exists (l ++ [n mod base]). split; [now rewrite E1, <- app_assoc|]. split; [apply Forall_app; split; [auto|repeat constructor; lia]|].
      split; [rewrite weigh_snoc, E3; lia|]. split; [intros _ Q; apply app_eq_nil in Q; intuition discriminate|].
      split. { intros _. destruct l; [congruence|]. cbn [hd app]. apply E5. auto. }
      split; [lia|]. intros w Hw Hlt. rewrite app_length. cbn [List.length].
      destruct w as [|[|w]]; [lia|cbn in Hlt; lia|].
      assert (List.length l <= S w)%nat; [|lia]. apply E7; [lia|]. apply Z.div_lt_upper_bound; [lia|].
      rewrite Nat2Z.inj_succ, Z.pow_succ_r in Hlt by lia. lia.
Qed.
Lemma digits_of_spec base n : 2 <= base -> 0 <= n -> digits_ok base (digits_of base n) /\ weigh base (digits_of base n) = n /\
  digits_of base n <> [] /\ (n <> 0 -> hd 0 (digits_of base n) <> 0) /\ (n = 0 -> digits_of base n = [0]) /\
  (forall w, (1 <= w)%nat -> n < base ^ Z.of_nat w -> (List.length (digits_of base n) <= w)%nat).
Proof.
  intros B N. unfold digits_of.
  destruct (digits_fuel_spec (S (Z.to_nat (Z.log2 n))) base B n []) as [l [E1 [E2 [E3 [E4 [E5 [E6 E7]]]]]]].
  { split; [auto|]. destruct (Z.eq_dec n 0) as [->|P]; [cbn; lia|]. rewrite Nat2Z.inj_succ, Z2Nat.id by apply Z.log2_nonneg.
    apply Z.log2_spec. lia. }
  rewrite app_nil_r in E1. rewrite E1. split; [auto|]. split; [auto|]. split; [apply E4; discriminate|]. split; [auto|].
  split; [|auto]. intros ->. specialize (E6 eq_refl). specialize (E4 ltac:(discriminate)).
  destruct l as [|x [|y l]]; [congruence| |cbn in E6; lia]. cbn in E3. f_equal. lia.
Qed.
Lemma show_numeral base n : 2 <= base <= 16 -> 0 <= n -> numeral base (show base n) n.
Proof.
  intros B N. destruct (digits_of_spec base n ltac:(lia) N) as [H1 [H2 [H3 _]]]. rewrite <- H2 at 2.
  apply numeral_digits; [lia|auto|auto].
Qed.
Lemma digit_chr_0 d : 0 <= d < 16 -> digit_chr d = "0"%char -> d = 0.
Proof.
  intros H E. pose proof (digit_chr_table d H) as J. rewrite E in J. apply table_facts in J as [J _]. cbn in J. congruence.
Qed.
Lemma show_no_leading_zero base n : 2 <= base <= 16 -> 0 <= n -> no_leading_zero (show base n).
Proof.
  intros B N. destruct (digits_of_spec base n ltac:(lia) N) as [H1 [H2 [H3 [H4 [H5 _]]]]]. unfold show, no_leading_zero.
  destruct (Z.eq_dec n 0) as [Q|Q]; [left; rewrite (H5 Q); reflexivity|right].
  specialize (H4 Q). destruct (digits_of base n) as [|d l]; [congruence|]. cbn [map hd] in *. intros E.
  inversion H1; subst. apply H4. apply digit_chr_0; [lia|auto].
Qed.
Lemma show_lower base n : 2 <= base <= 16 -> 0 <= n -> lower_case (show base n).
Proof.
  intros B N. destruct (digits_of_spec base n ltac:(lia) N) as [H1 _]. apply Forall_forall. intros c C.
  apply in_map_iff in C as [d [<- D]]. unfold digits_ok in H1. rewrite Forall_forall in H1. apply digit_chr_lower. specialize (H1 _ D). lia.
Qed.

(** ** Reading numbers *)
Lemma numeral_nonempty base s n : numeral base s n -> s <> [].
Proof. intros H. destruct H; [discriminate|]. intros Q. apply app_eq_nil in Q. intuition discriminate. Qed.
Lemma numeral_chars base s n : numeral base s n -> Forall (fun c => exists d, In (c, d) digit_table /\ d < base) s.
Proof.
  induction 1 as [c d J L|s n c d H IH J L].
  - repeat constructor. eauto.
  - apply Forall_app. split; [auto|repeat constructor; eauto].
Qed.
Lemma read_digits_app base s t : forall acc prev, Forall (fun c => exists d, In (c, d) digit_table /\ d < base) s ->
  read_digits base acc prev (s ++ t) = read_digits base (fold_left (fun a c => a * base + match digit_val c with Some d => d | None => 0 end) s acc)
    (match s with [] => prev | _ => true end) t.
Proof.
  induction s as [|c s IH]; intros acc prev F; [reflexivity|]. inversion F as [|c' s' [d [J L]] F']; subst. cbn [app read_digits fold_left].
  destruct (table_facts _ _ J) as [E1 [E2 [E3 [E4 [E5 _]]]]]. rewrite (proj2 (Z.eqb_neq _ _) E5), E1, (proj2 (Z.ltb_lt _ _) L), IH by auto.
  destruct s; reflexivity.
Qed.
Lemma numeral_fold base s n : numeral base s n -> fold_left (fun a c => a * base + match digit_val c with Some d => d | None => 0 end) s 0 = n.
Proof.
  induction 1 as [c d J L|s n c d H IH J L].
  - destruct (table_facts _ _ J) as [E1 _]. cbn [fold_left]. rewrite E1. lia.
  - destruct (table_facts _ _ J) as [E1 _]. rewrite fold_left_app, IH. cbn [fold_left]. rewrite E1. lia.
Qed.
Lemma read_digits_numeral base s n : numeral base s n -> read_digits base 0 false s = Some n.
Proof.
  intros H. pose proof (numeral_nonempty _ _ _ H). rewrite <- (app_nil_r s), read_digits_app by (eapply numeral_chars; eauto).
  rewrite (numeral_fold _ _ _ H). destruct s; [congruence|reflexivity].
Qed.
Lemma drop_space_id s : (forall c, In c s -> is_space c = false) -> drop_space s = s.
Proof. destruct s as [|c t]; intros H; [reflexivity|]. cbn [drop_space]. rewrite H by (left; auto). reflexivity. Qed.
Lemma strip_id s : (forall c, In c s -> is_space c = false) -> strip s = s.
Proof.
  intros H. unfold strip. rewrite (drop_space_id s H), drop_space_id; [apply rev_involutive|].
  intros c C. apply H. now apply in_rev.
Qed.
Lemma numeral_no_space base s n : numeral base s n -> forall c, In c s -> is_space c = false.
Proof. intros H c C. pose proof (numeral_chars _ _ _ H) as F. rewrite Forall_forall in F. destruct (F c C) as [d [J _]]. now apply table_facts in J. Qed.
(** no base prefix is seen in a numeral, except for 0b.. read in base 0 *)
Lemma read_unsigned_numeral base s n : base <> 0 -> base <> 2 -> numeral base s n -> read_unsigned base s = Some n.
Proof.
  intros B0 B2 H. pose proof (numeral_chars _ _ _ H) as F. pose proof (read_digits_numeral _ _ _ H) as R.
  destruct s as [|z [|x t]]; [now destruct (numeral_nonempty _ _ _ H)| |].
  - cbn [read_unsigned]. rewrite (proj2 (Z.eqb_neq _ _) B0). auto.
  - cbn [read_unsigned]. inversion F as [|z' s' Fz F']; subst. inversion F' as [|x' t' [d [J L]] F'']; subst.
    destruct (table_facts _ _ J) as [_ [_ [_ [_ [_ [_ [N1 [N2 [N3 N4]]]]]]]]].
    assert (E1 : (ord x =? 120) || (ord x =? 88) = false) by lia.
    assert (E2 : (ord x =? 111) || (ord x =? 79) = false) by lia.
    assert (E3 : (base =? 2) || (base =? 0) = false) by lia.
    rewrite E1, E2, E3, !andb_false_l, !andb_false_r, (proj2 (Z.eqb_neq _ _) B0). auto.
Qed.
Lemma numeral_head base s n : numeral base s n -> exists c t, s = c :: t /\ ord c <> 45 /\ ord c <> 43.
Proof.
  intros H. pose proof (numeral_chars _ _ _ H) as F. destruct s as [|c t]; [now destruct (numeral_nonempty _ _ _ H)|].
  inversion F as [|c' s' [d [J L]] F']; subst. apply table_facts in J. exists c, t. split; [reflexivity|lia].
Qed.
Lemma py_int_numeral base s n : base <> 0 -> base <> 2 -> numeral base s n -> py_int base s = Ok n.
Proof.
  intros B0 B2 H. unfold py_int. rewrite strip_id by (eapply numeral_no_space; eauto).
  pose proof (read_unsigned_numeral _ _ _ B0 B2 H) as R. destruct (numeral_head _ _ _ H) as [c [t [-> [N1 N2]]]].
  rewrite (proj2 (Z.eqb_neq _ _) N1), (proj2 (Z.eqb_neq _ _) N2), R. reflexivity.
Qed.

(** ** Separators *)
Lemma join_separated sep l : join [sep] l = separated sep l.
Proof. induction l as [|x [|y t] IH]; [reflexivity|cbn; now rewrite app_nil_r|]. cbn [join separated] in *. rewrite IH. reflexivity. Qed.
Lemma split_word sep s : ~ In sep s -> split sep s = [s].
Proof.
  induction s as [|c s IH]; intros H; [reflexivity|]. cbn [split]. destruct (Ascii.eqb_spec c sep) as [->|N]; [destruct H; now left|].
  rewrite IH; [reflexivity|]. intros J. apply H. now right.
Qed.
Lemma split_app sep w s : ~ In sep w -> split sep (w ++ sep :: s) = w :: split sep s.
Proof.
  induction w as [|c w IH]; intros H; cbn [app split].
  - now rewrite Ascii.eqb_refl.
  - destruct (Ascii.eqb_spec c sep) as [->|N]; [destruct H; now left|]. rewrite IH; [reflexivity|]. intros J. apply H. now right.
Qed.
Lemma split_separated sep l : l <> [] -> Forall (fun w => ~ In sep w) l -> split sep (separated sep l) = l.
Proof.
  induction l as [|w [|v l] IH]; intros N F; [congruence| |]; inversion F; subst.
  - cbn [separated]. rewrite app_nil_r. now apply split_word.
  - cbn [separated]. rewrite split_app by auto. f_equal. apply IH; [discriminate|auto].
Qed.
Lemma numeral_not_in base s n x : numeral base s n -> (forall d, ~ In (x, d) digit_table) -> ~ In x s.
Proof. intros H N J. pose proof (numeral_chars _ _ _ H) as F. rewrite Forall_forall in F. destruct (F _ J) as [d [K _]]. now apply N in K. Qed.
Lemma not_digit x : existsb (fun cd => Ascii.eqb (fst cd) x) digit_table = false -> forall d, ~ In (x, d) digit_table.
Proof. rewrite existsb_false. intros H d J. apply H in J. cbn [fst] in J. now rewrite Ascii.eqb_refl in J. Qed.
Lemma colon_not_digit d : ~ In (colon, d) digit_table. Proof. now apply not_digit. Qed.
Lemma dot_not_digit d : ~ In (dot, d) digit_table. Proof. now apply not_digit. Qed.
Lemma dash_not_digit d : ~ In (dash, d) digit_table. Proof. now apply not_digit. Qed.

(** ** Fixed width hexadecimal *)
Lemma weigh_zeros base k l : weigh base (repeat 0 k ++ l) = weigh base l.
Proof. unfold weigh. rewrite fold_left_app. f_equal. induction k as [|k IH]; [reflexivity|]. cbn [repeat fold_left]. apply IH. Qed.
(** the digits of a zero-padded number *)
Lemma zfill_digits base w n : 2 <= base <= 16 -> (1 <= w)%nat -> 0 <= n < base ^ Z.of_nat w ->
  exists l, format_num base w n = map digit_chr l /\ List.length l = w /\ digits_ok base l /\ weigh base l = n.
Proof.
  intros B W N. destruct (digits_of_spec base n ltac:(lia) ltac:(lia)) as [H1 [H2 [H3 [_ [_ H6]]]]]. specialize (H6 w W ltac:(lia)).
  unfold format_num. rewrite (proj2 (Z.ltb_ge _ _)) by lia. unfold zfill, show. rewrite map_length.
  exists (repeat 0 (w - List.length (digits_of base n)) ++ digits_of base n).
  split; [|split; [rewrite app_length, repeat_length; lia|split; [apply Forall_app; split; [|auto]|now rewrite weigh_zeros]]].
  - rewrite map_app. f_equal. induction (w - List.length (digits_of base n))%nat; [reflexivity|]. cbn [repeat map]. f_equal; auto.
  - apply Forall_forall. intros x X. apply repeat_spec in X. lia.
Qed.
Lemma weigh_acc base l : forall acc, fold_left (fun a d => a * base + d) l acc = acc * base ^ Z.of_nat (List.length l) + weigh base l.
Proof.
  induction l as [|d l IH] using rev_ind; intros acc; [cbn; lia|].
  rewrite fold_left_app, weigh_snoc, IH, app_length, Nat2Z.inj_add, Z.pow_add_r by lia. cbn [fold_left List.length]. change (Z.of_nat 1) with 1. lia.
Qed.
Lemma weigh_cons base d l : weigh base (d :: l) = d * base ^ Z.of_nat (List.length l) + weigh base l.
Proof. unfold weigh at 1. cbn [fold_left]. rewrite weigh_acc. lia. Qed.
Lemma weigh_pos base l : 2 <= base -> digits_ok base l -> 0 <= weigh base l < base ^ Z.of_nat (List.length l).
Proof.
  intros B. induction l as [|d l IH]; intros D; [cbn; lia|]. inversion D as [|? ? D1 D2]; subst. specialize (IH D2). rewrite weigh_cons.
  cbn [List.length]. rewrite Nat2Z.inj_succ, Z.pow_succ_r by lia. nia.
Qed.
(** base 16 digits in pairs are base 256 digits *)
Fixpoint bytes_of (l : list Z) : list Z := match l with a :: b :: t => a * 16 + b :: bytes_of t | _ => [] end.
Lemma list_ind2 {X} (P : list X -> Prop) : P [] -> (forall x, P [x]) -> (forall x y l, P l -> P (x :: y :: l)) -> forall l, P l.
Proof. intros H0 H1 H2. fix IH 1. intros [|x [|y l]]; [exact H0|apply H1|apply H2, IH]. Qed.
Lemma bytes_weigh l k : List.length l = (2 * k)%nat -> weigh 256 (bytes_of l) = weigh 16 l /\ List.length (bytes_of l) = k.
Proof.
  revert k. induction l as [|x|x y l IH] using list_ind2; intros k H.
  - destruct k; [split; reflexivity|cbn in H; lia].
  - cbn in H. lia.
  - destruct k as [|k]; [cbn in H; lia|]. assert (H' : List.length l = (2 * k)%nat) by (cbn in H; lia).
    destruct (IH _ H') as [E1 E2]. cbn [bytes_of]. rewrite !weigh_cons, E1, E2, H'. cbn [List.length]. rewrite H'. split; [|lia].
    replace (Z.of_nat (S (2 * k))) with (2 * Z.of_nat k + 1) by lia. replace (Z.of_nat (2 * k)) with (2 * Z.of_nat k) by lia.
    rewrite Z.pow_add_r, (Z.pow_mul_r 16 2) by lia. change (16 ^ 2) with 256. change (16 ^ 1) with 16. lia.
Qed.
Lemma bytes_ok l : digits_ok 16 l -> digits_ok 256 (bytes_of l).
Proof.
  induction l as [|x|x y l IH] using list_ind2; intros H; [constructor|constructor|]. inversion H as [|? ? H1 H2]; subst. inversion H2; subst.
  cbn [bytes_of]. constructor; [lia|auto].
  apply IH. auto.
Qed.
Lemma pairs_digits l k : List.length l = (2 * k)%nat -> digits_ok 16 l ->
  Forall2 (numeral 16) (pairs (map digit_chr l)) (bytes_of l) /\ List.length (pairs (map digit_chr l)) = k /\
  List.concat (pairs (map digit_chr l)) = map digit_chr l /\ Forall (fun w => List.length w = 2%nat) (pairs (map digit_chr l)).
Proof.
  revert k. induction l as [|x|x y l IH] using list_ind2; intros k H D.
  - destruct k; [repeat split; constructor|cbn in H; lia].
  - cbn in H. lia.
  - destruct k as [|k]; [cbn in H; lia|]. assert (H' : List.length l = (2 * k)%nat) by (cbn in H; lia).
    inversion D as [|? ? D1 D2]; subst. inversion D2 as [|? ? D3 D4]; subst. destruct (IH _ H' D4) as [E1 [E2 [E3 E4]]].
    cbn [map pairs bytes_of List.concat app List.length]. split; [|split; [now f_equal|split; [now rewrite E3|constructor; [reflexivity|auto]]]].
    constructor; [|auto]. change [digit_chr x; digit_chr y] with ([digit_chr x] ++ [digit_chr y]).
    apply num_more; [apply num_one|..]; try apply digit_chr_table; lia.
Qed.

(** ** C54: Ethernet and IPv4 *)
Lemma split_numerals sep base l ns : (forall d, ~ In (sep, d) digit_table) -> l <> [] -> Forall2 (numeral base) l ns ->
  split sep (separated sep l) = l.
Proof.
  intros N L F. apply split_separated; [auto|]. apply Forall_forall. intros w W. 
  clear L. induction F as [|w' n l' ns' H F IH]; [destruct W|]. destruct W as [<-|W]; [eapply numeral_not_in; eauto|auto].
Qed.
Lemma is_prefix_spec p s : is_prefix p s = true <-> exists t, s = p ++ t.
Proof.
  revert s. induction p as [|x p IH]; intros s.
  - split; [intros _; exists s; reflexivity|reflexivity].
  - destruct s as [|y s]; cbn [is_prefix app].
    + split; [intros Q; discriminate Q|intros [t Q]; discriminate Q].
    + rewrite andb_true_iff, IH, Ascii.eqb_eq. split.
      * intros [-> [t ->]]. exists t. reflexivity.
      * intros [t Q]. injection Q as -> ->. eauto.
Qed.
Lemma contains_spec p s : contains p s = true <-> exists a b, s = a ++ p ++ b.
Proof.
  induction s as [|x s IH]; cbn [contains]; rewrite orb_true_iff, is_prefix_spec.
  - split; [intros [[t H]|H]; [exists [], t; exact H|discriminate]|]. intros [a [b H]]. left. symmetry in H. apply app_eq_nil in H as [-> H].
    exists b. symmetry. exact H.
  - rewrite IH. split.
    + intros [[t H]|[a [b ->]]]; [exists [], t; exact H|exists (x :: a), b; reflexivity].
    + intros [[|y a] [b H]]; [left; exists b; exact H|right]. injection H as -> H. eauto.
Qed.
(** no double separator between non-empty words *)
Lemma not_doubled sep l : Forall (fun w => w <> [] /\ ~ In sep w) l -> contains [sep; sep] (separated sep l) = false.
Proof.
  intros F. destruct (contains [sep; sep] (separated sep l)) eqn:E; [exfalso|reflexivity].
  apply contains_spec in E as [a [b E]]. revert a b E. induction F as [|w l [W1 W2] F IH]; intros a b E.
  - destruct a; discriminate.
  - cbn [separated] in E. destruct l as [|v l].
    + rewrite app_nil_r in E. apply W2. rewrite E. apply in_or_app. right. now left.
    + (* where the doubled separator starts *)
      assert (G : exists u, a = w ++ u \/ (exists c u', w = a ++ c :: u' /\ u = [])).
      { clear - E. revert w E. induction a as [|x a IHa]; intros w E.
        - destruct w as [|c u']; [exists []; left; reflexivity|]. exists []. right. exists c, u'. auto.
        - destruct w as [|c w]; [exists (x :: a); left; reflexivity|]. injection E as <- E. destruct (IHa _ E) as [u [->|[c' [u' [-> ->]]]]].
          + exists u. left. reflexivity.
          + exists []. right. exists c', u'. split; reflexivity. }
      destruct G as [u [->|[c [u' [-> ->]]]]].
      * rewrite <- app_assoc in E. apply app_inv_head in E. destruct u as [|y u].
        -- injection E as E. inversion F as [|v' l' [V1 V2] F']; subst. cbn [separated] in E. destruct v as [|y v]; [congruence|].
           injection E as <- E. apply V2. now left.
        -- injection E as <- E. exact (IH u b E).
      * rewrite <- app_assoc in E. apply app_inv_head in E. injection E as -> E. apply W2. apply in_or_app. right. now left.
Qed.
Lemma Forall2_left {X Y} (P : X -> Y -> Prop) (Q : X -> Prop) l m : (forall x y, P x y -> Q x) -> Forall2 P l m -> Forall Q l.
Proof. intros H. induction 1; constructor; eauto. Qed.

Lemma hex_bytes v k : (1 <= k)%nat -> 0 <= v < 256 ^ Z.of_nat k -> exists l bs, pairs (format_num 16 (2 * k) v) = l /\
  Forall2 (numeral 16) l bs /\ Forall (fun w => List.length w = 2%nat) l /\ digits_ok 256 bs /\ weigh 256 bs = v /\ List.length l = k /\
  numeral 16 (List.concat l) v /\ lower_case (List.concat l).
Proof.
  intros K V. assert (V' : 0 <= v < 16 ^ Z.of_nat (2 * k)).
  { replace (Z.of_nat (2 * k)) with (2 * Z.of_nat k) by lia. rewrite Z.pow_mul_r by lia. exact V. }
  destruct (zfill_digits 16 (2 * k) v ltac:(lia) ltac:(lia) V') as [ds [E1 [E2 [E3 E4]]]].
  destruct (pairs_digits ds k E2 E3) as [P1 [P2 [P3 P4]]]. destruct (bytes_weigh ds k E2) as [B1 B2].
  exists (pairs (map digit_chr ds)), (bytes_of ds). rewrite E1, P3. repeat (split; [now auto|]).
  split; [now apply bytes_ok|]. split; [congruence|]. split; [auto|]. split.
  - rewrite <- E4. apply numeral_digits; [lia|auto|]. intros ->. cbn in E2. lia.
  - apply Forall_forall. intros c C. apply in_map_iff in C as [d [<- D]]. unfold digits_ok in E3. rewrite Forall_forall in E3. apply digit_chr_lower, E3, D.
Qed.

Lemma ethernet_text v : 0 <= v < 2 ^ 48 -> exists l bs, format_ethernet v None = Ok (separated ":" l) /\ List.length l = 6%nat /\
  Forall2 (numeral 16) l bs /\ Forall (fun w => List.length w = 2%nat /\ lower_case w) l /\ weigh 256 bs = v /\
  normalise_bytes (separated ":" l) = Ok v.
Proof.
  intros V. destruct (hex_bytes v 6 ltac:(lia) V) as [l [bs [E1 [E2 [E3 [E4 [E5 [E6 [E7 E8]]]]]]]]].
  exists l, bs. assert (S1 : format_ethernet v None = Ok (separated ":" l)).
  { unfold format_ethernet, with_mask. change (2 * 6)%nat with 12%nat in E1. rewrite E1. f_equal. apply join_separated. }
  assert (S2 : split colon (separated ":" l) = l).
  { eapply split_numerals; [apply colon_not_digit|destruct l; discriminate|eauto]. }
  split; [auto|]. split; [auto|]. split; [auto|]. split.
  { apply Forall_forall. intros w W. split; [rewrite Forall_forall in E3; auto|]. apply Forall_forall. intros c C.
    unfold lower_case in E8. rewrite Forall_forall in E8. apply E8. apply in_concat. eauto. }
  split; [auto|]. unfold normalise_bytes. rewrite S2, E6. cbn [Nat.eqb Nat.leb orb andb].
  assert (C : contains (T "::") (separated ":" l) = false).
  { change (T "::") with [":"; ":"]%char. apply not_doubled. eapply Forall2_left; [|exact E2]. intros x y H. split; [eapply numeral_nonempty; eauto|].
    eapply numeral_not_in; [eauto|apply colon_not_digit]. }
  rewrite C. assert (D : split dot (separated ":" l) = [separated ":" l]).
  { apply split_word. intros J. clear - E2 J. induction E2 as [|w n l' ns' H F IH]; [destruct J|]. cbn [separated] in J. apply in_app_or in J as [J|J].
    - revert J. eapply numeral_not_in; [eauto|apply dot_not_digit].
    - destruct l' as [|v l']; [destruct J|]. destruct J as [J|J]; [discriminate|auto]. }
  rewrite D. apply py_int_numeral; [lia|lia|auto].
Qed.

Lemma F2_length {X Y} (P : X -> Y -> Prop) l m : Forall2 P l m -> List.length l = List.length m.
Proof. induction 1; cbn [List.length]; congruence. Qed.
Lemma rall_map_ok {X Y} (f : X -> result Y) (g : X -> Y) l : (forall x, In x l -> f x = Ok (g x)) -> rall (map f l) = Ok (map g l).
Proof.
  induction l as [|x l IH]; intros H; [reflexivity|]. cbn [map rall]. rewrite H by (now left). cbn [rbind].
  rewrite IH by (intros; apply H; now right). reflexivity.
Qed.
Lemma ipv4_parts l bs : Forall2 (numeral 16) l bs ->
  rall (map (fun x => do n <- py_int 16 x; Ok (format_num 10 0 n)) l) = Ok (map (format_num 10 0) bs).
Proof.
  induction 1 as [|w n l ns H F IH]; [reflexivity|]. cbn [map rall]. rewrite (py_int_numeral 16 w n) by (auto; lia). cbn [rbind].
  rewrite IH. reflexivity.
Qed.
Lemma format_dec n : 0 <= n -> format_num 10 0 n = show 10 n.
Proof. intros H. unfold format_num. rewrite (proj2 (Z.ltb_ge _ _)) by lia. reflexivity. Qed.
Lemma lor_shift a b k : 0 <= k -> 0 <= b < 2 ^ k -> Z.lor (Z.shiftl a k) b = a * 2 ^ k + b.
Proof.
  intros K B.
  assert (D : Z.land (Z.shiftl a k) b = 0).
  { apply Z.bits_inj'. intros i I. rewrite Z.land_spec, Z.bits_0, Z.shiftl_spec by lia. destruct (Z_lt_ge_dec i k) as [L|G].
    - rewrite Z.testbit_neg_r by lia. reflexivity.
    - destruct (Z.eq_dec b 0) as [Q|Q]; [subst; rewrite Z.bits_0; apply andb_false_r|].
      rewrite (Z.bits_above_log2 b i); [apply andb_false_r|lia|].
      apply Z.log2_lt_pow2; [lia|]. apply Z.lt_le_trans with (2 ^ k); [lia|apply Z.pow_le_mono_r; lia]. }
  rewrite <- Z.lxor_lor, <- Z.add_nocarry_lxor by auto. rewrite Z.shiftl_mul_pow2 by lia. reflexivity.
Qed.
Lemma lor_le_255 a b : 0 <= a < 256 -> 0 <= b < 256 -> 0 <= Z.lor a b < 256.
Proof.
  intros A B. split; [apply Z.lor_nonneg; lia|]. destruct (Z.eq_dec (Z.lor a b) 0) as [->|N]; [lia|].
  assert (Z.lor a b >= 0) by (apply Z.le_ge, Z.lor_nonneg; lia). change 256 with (2 ^ 8). apply Z.log2_lt_pow2; [lia|]. rewrite Z.log2_lor by lia.
  apply Z.max_lub_lt; destruct (Z.eq_dec a 0), (Z.eq_dec b 0); subst; try (cbn; lia); apply Z.log2_lt_pow2; lia.
Qed.
Lemma quad_value a b c d : 0 <= a < 256 -> 0 <= b < 256 -> 0 <= c < 256 -> 0 <= d < 256 ->
  Z.lor (Z.lor (Z.lor (Z.shiftl a 24) (Z.shiftl b 16)) (Z.shiftl c 8)) d = weigh 256 [a; b; c; d].
Proof.
  intros A B C D. replace (weigh 256 [a; b; c; d]) with (((a * 2 ^ 8 + b) * 2 ^ 8 + c) * 2 ^ 8 + d) by (unfold weigh; cbn [fold_left]; lia).
  rewrite <- !lor_shift by lia. rewrite !Z.shiftl_lor, !Z.shiftl_shiftl by lia. reflexivity.
Qed.
Lemma ipv4_text_ok v : 0 <= v < 2 ^ 32 -> exists a b c d wa wb wc wd, v = weigh 256 [a; b; c; d] /\
  Forall2 (fun w n => numeral 10 w n /\ no_leading_zero w /\ 0 <= n < 256) [wa; wb; wc; wd] [a; b; c; d] /\
  format_ipv4 v None = Ok (separated "." [wa; wb; wc; wd]) /\
  normalise_bytes (separated "." [wa; wb; wc; wd]) = Ok v.
Proof.
  intros V. destruct (hex_bytes v 4 ltac:(lia) V) as [l [bs [E1 [E2 [E3 [E4 [E5 [E6 _]]]]]]]].
  pose proof (eq_trans (eq_sym (F2_length _ _ _ E2)) E6) as L. destruct bs as [|a [|b [|c [|d [|]]]]]; try discriminate L. clear L.
  unfold digits_ok in E4. inversion E4 as [|? ? A F1]; subst. inversion F1 as [|? ? B F2]; subst. inversion F2 as [|? ? C F3]; subst. inversion F3 as [|? ? D _]; subst.
  clear F1 F2 F3 E4. exists a, b, c, d, (show 10 a), (show 10 b), (show 10 c), (show 10 d).
  assert (F : Forall2 (fun w n => numeral 10 w n /\ no_leading_zero w /\ 0 <= n < 256) [show 10 a; show 10 b; show 10 c; show 10 d] [a; b; c; d]).
  { repeat (constructor; [split; [apply show_numeral; lia|split; [apply show_no_leading_zero; lia|lia]]|]). constructor. }
  split; [auto|]. split; [exact F|]. split.
  - unfold format_ipv4, with_mask, ipv4_text. change (2 * 4)%nat with 8%nat in *. rewrite (ipv4_parts _ _ E2). cbn [rbind map].
    rewrite !format_dec by lia. f_equal. apply join_separated.
  - assert (N : Forall2 (numeral 10) [show 10 a; show 10 b; show 10 c; show 10 d] [a; b; c; d]).
    { repeat (constructor; [apply show_numeral; lia|]). constructor. }
    assert (S2 : split dot (separated "." [show 10 a; show 10 b; show 10 c; show 10 d]) = [show 10 a; show 10 b; show 10 c; show 10 d]).
    { eapply split_numerals; [apply dot_not_digit|discriminate|exact N]. }
    assert (S1 : split colon (separated "." [show 10 a; show 10 b; show 10 c; show 10 d]) = [separated "." [show 10 a; show 10 b; show 10 c; show 10 d]]).
    { apply split_word. generalize [show 10 a; show 10 b; show 10 c; show 10 d] [a; b; c; d] N. clear. intros l ns N J.
      induction N as [|w n l' ns' H F IH]; [destruct J|]. cbn [separated] in J. apply in_app_or in J as [J|J].
      - revert J. eapply numeral_not_in; [eauto|apply colon_not_digit].
      - destruct l' as [|v l']; [destruct J|]. destruct J as [J|J]; [discriminate|auto]. }
    unfold normalise_bytes. rewrite S1, S2. cbn [List.length Nat.eqb Nat.leb orb andb]. unfold parse_ipv4.
    assert (PI : forall n, 0 <= n -> py_int 10 (show 10 n) = Ok n) by (intros n HN; apply py_int_numeral; [lia|lia|apply show_numeral; lia]).
    rewrite !PI by lia. cbn [rbind].
    rewrite (proj2 (Z.leb_le _ _)); [rewrite quad_value by lia; reflexivity|].
    assert (0 <= Z.lor (Z.lor (Z.lor a b) c) d < 256) by (repeat apply lor_le_255; lia). lia.
Qed.

(** ** C55: IPv6 *)
Lemma not_in_separated (x sep : ascii) base l ns : x <> sep -> (forall d, ~ In (x, d) digit_table) -> Forall2 (numeral base) l ns -> ~ In x (separated sep l).
Proof.
  intros N D F J. induction F as [|w n l' ns' H F IH]; [destruct J|]. cbn [separated] in J. apply in_app_or in J as [J|J].
  - revert J. eapply numeral_not_in; eauto.
  - destruct l' as [|v l']; [destruct J|]. destruct J as [J|J]; [congruence|auto].
Qed.
Lemma from_bytes_ge s : s <> [] -> 48 <= ord (hd "000"%char s) -> 48 * 256 ^ Z.of_nat (List.length s - 1) <= from_bytes s.
Proof.
  intros N H. unfold from_bytes. destruct s as [|c s]; [congruence|]. cbn [fold_left hd List.length] in *. replace (S (List.length s) - 1)%nat with (List.length s) by lia.
  assert (G : forall t acc, 0 <= acc -> acc * 256 ^ Z.of_nat (List.length t) <= fold_left (fun acc c => acc * 256 + ord c) t acc).
  { induction t as [|x t IH]; intros acc A; [cbn; lia|]. cbn [fold_left List.length]. pose proof (ord_range x).
    specialize (IH (acc * 256 + ord x) ltac:(lia)). rewrite Nat2Z.inj_succ, Z.pow_succ_r by lia. nia. }
  specialize (G s (0 * 256 + ord c) ltac:(lia)). pose proof (Z.pow_pos_nonneg 256 (Z.of_nat (List.length s)) ltac:(lia) ltac:(lia)). nia.
Qed.
Lemma separated_length sep l k : Forall (fun w => List.length w = k) l -> l <> [] -> List.length (separated sep l) = (List.length l * S k - 1)%nat.
Proof.
  induction l as [|w [|v l] IH]; intros F N; [congruence| |]; inversion F as [|? ? W F']; subst.
  - cbn [separated]. rewrite app_nil_r. cbn [List.length]. lia.
  - cbn [separated]. rewrite app_length. specialize (IH F' ltac:(discriminate)). cbn [List.length separated] in *. lia.
Qed.
Lemma ipv6_never v : 0 <= v < 2 ^ 128 -> exists s n, format_ipv6 v None = Ok s /\ normalise_bytes s = Ok n /\ 2 ^ 128 < n.
Proof.
  intros V. destruct (hex_bytes v 16 ltac:(lia) V) as [l [bs [E1 [E2 [E3 [E4 [E5 [E6 [E7 E8]]]]]]]]].
  exists (separated ":" l), (from_bytes (separated ":" l)).
  split. { unfold format_ipv6, with_mask. change (2 * 16)%nat with 32%nat in E1. rewrite E1. f_equal. apply join_separated. }
  assert (S2 : split colon (separated ":" l) = l).
  { eapply split_numerals; [apply colon_not_digit|destruct l; discriminate|eauto]. }
  assert (C : contains (T "::") (separated ":" l) = false).
  { change (T "::") with [":"; ":"]%char. apply not_doubled. eapply Forall2_left; [|exact E2]. intros x y H. split; [eapply numeral_nonempty; eauto|].
    eapply numeral_not_in; [eauto|apply colon_not_digit]. }
  split.
  - unfold normalise_bytes. rewrite S2, E6, C. cbn [Nat.eqb Nat.leb orb andb].
    rewrite (split_word dot), (split_word dash); [reflexivity| |]; (eapply not_in_separated; [discriminate| |exact E2]);
      [apply dash_not_digit|apply dot_not_digit].
  - pose proof (separated_length ":" l 2 E3 ltac:(destruct l; discriminate)) as L. rewrite E6 in L.
    assert (NE : separated ":" l <> []) by (destruct (separated ":" l); [discriminate L|discriminate]).
    assert (H : 48 <= ord (hd "000"%char (separated ":" l))).
    { destruct l as [|w l]; [discriminate|]. inversion E2 as [|? n ? ns N F]; subst. destruct w as [|c w]; [now destruct (numeral_nonempty _ _ _ N)|].
      cbn [separated app hd]. pose proof (numeral_chars _ _ _ N) as G. inversion G as [|? ? [d [J _]] _]; subst. now apply table_facts in J. }
    pose proof (from_bytes_ge _ NE H) as G. rewrite L in G. change (Z.of_nat (16 * 3 - 1 - 1)) with 46 in G. lia.
Qed.

(** the parser: eight groups *)
Definition group_ok (w : text) (n : Z) : Prop := numeral 16 w n /\ n <= 0xFFFF.
Lemma numeral_nonneg base s n : 0 <= base -> numeral base s n -> 0 <= n.
Proof. intros B H. induction H as [c d J L|s n c d H IH J L]; apply table_facts in J; nia. Qed.
Definition blank_or (w : text) (n : Z) : Prop := (w = [] /\ n = 0) \/ group_ok w n.
Lemma read_groups_ok l ns : Forall2 blank_or l ns -> forall R k, 0 <= R -> Z.of_nat (List.length l) * 16 = k + 16 ->
  read_groups l (R * 2 ^ (k + 16)) k = Ok (fold_left (fun acc d => acc * 65536 + d) ns R).
Proof.
  induction 1 as [|w n l ns H F IH]; intros R k HR K.
  - cbn [List.length] in K. cbn [read_groups fold_left]. replace (k + 16) with 0 by lia. f_equal. lia.
  - cbn [List.length] in K. cbn [read_groups fold_left].
    assert (P : py_int 16 (match w with [] => T "0" | _ => w end) = Ok n /\ 0 <= n <= 65535).
    { destruct H as [[-> ->]|[H N]]; [split; [vm_compute; reflexivity|lia]|]. pose proof (numeral_nonneg 16 _ _ ltac:(lia) H).
      destruct w as [|c w]; [now destruct (numeral_nonempty _ _ _ H)|]. split; [apply py_int_numeral; [lia|lia|auto]|lia]. }
    destruct P as [-> N]. cbn [rbind]. rewrite (proj2 (Z.leb_le n 65535)) by lia.
    replace (Z.lor (R * 2 ^ (k + 16)) (Z.shiftl n k)) with ((R * 65536 + n) * 2 ^ (k - 16 + 16)).
    + apply IH; [nia|lia].
    + replace (k - 16 + 16) with k by lia. change 65536 with (2 ^ 16). rewrite <- lor_shift by lia.
      rewrite <- !Z.shiftl_mul_pow2 by lia. rewrite Z.shiftl_lor, Z.shiftl_shiftl by lia. f_equal. f_equal. lia.
Qed.
Lemma ipv6_full l ns : Forall2 group_ok l ns -> List.length l = 8%nat -> normalise_bytes (separated ":" l) = Ok (weigh 65536 ns).
Proof.
  intros F L. assert (N : Forall2 (numeral 16) l ns) by (clear L; induction F as [|? ? ? ? [? _] ? ?]; constructor; auto).
  assert (S2 : split colon (separated ":" l) = l) by (eapply split_numerals; [apply colon_not_digit|destruct l; discriminate|eauto]).
  unfold normalise_bytes. rewrite S2, L. cbn [Nat.eqb orb]. unfold parse_ipv6. cbn [widen]. rewrite S2, L. cbn [Nat.ltb Nat.leb rbind].
  rewrite S2, L. cbn [Nat.eqb]. change 0 with (0 * 2 ^ (112 + 16)). apply read_groups_ok; [|lia|rewrite L; reflexivity].
  clear - F. induction F; constructor; [right|]; auto.
Qed.

(** ** C64: the parser on compressed addresses *)
Lemma separated_app sep l r : l <> [] -> r <> [] -> separated sep (l ++ r) = separated sep l ++ sep :: separated sep r.
Proof.
  intros HL HR. induction l as [|w [|v l] IH]; [congruence| |].
  - cbn [app separated]. destruct r; [congruence|]. rewrite app_nil_r. reflexivity.
  - cbn [app separated] in *. rewrite IH by discriminate. rewrite <- !app_assoc. cbn [app]. rewrite <- !app_assoc. reflexivity.
Qed.
Lemma stretch_skip a b t : Ascii.eqb b colon = false -> stretch (a :: b :: t) = a :: stretch (b :: t).
Proof. intros H. change (stretch (a :: b :: t)) with (if Ascii.eqb a colon && Ascii.eqb b colon then colon :: a :: b :: t else a :: stretch (b :: t)). now rewrite H, andb_false_r. Qed.
Lemma stretch_word w s : ~ In colon w -> w <> [] -> stretch (w ++ s) = w ++ stretch s.
Proof.
  induction w as [|c w IH]; intros N W; [congruence|]. assert (C : Ascii.eqb c colon = false) by (apply Ascii.eqb_neq; intros ->; apply N; now left).
  destruct w as [|d w].
  - cbn [app]. destruct s as [|b s]; [reflexivity|]. cbn [stretch]. rewrite C. reflexivity.
  - cbn [app stretch] in *. rewrite C. cbn [andb]. f_equal. apply IH; [intros J; apply N; now right|discriminate].
Qed.
(** [l] begins the address: no empty word, or just the empty word before a leading "::" *)
Lemma stretch_gap l r : (l = [[]] \/ l <> [] /\ Forall (fun w => w <> [] /\ ~ In colon w) l) -> r <> [] ->
  stretch (separated colon (l ++ [[]] ++ r)) = separated colon (l ++ [[]; []] ++ r).
Proof.
  intros [->|[N F]] R.
  - cbn [app separated]. destruct r; [congruence|]. cbn [app stretch]. reflexivity.
  - rewrite (separated_app colon l ([[]] ++ r)), (separated_app colon l ([[]; []] ++ r)) by (auto; discriminate).
    assert (B : separated colon ([[]] ++ r) = colon :: separated colon r) by (destruct r; [congruence|reflexivity]).
    assert (B2 : separated colon ([[]; []] ++ r) = colon :: colon :: separated colon r) by (destruct r; [congruence|reflexivity]).
    rewrite B, B2. generalize (separated colon r). intros s. induction F as [|w l [W1 W2] F IH]; [congruence|].
    destruct l as [|v l].
    + cbn [separated]. rewrite app_nil_r, stretch_word by auto. cbn [stretch]. rewrite Ascii.eqb_refl. reflexivity.
    + specialize (IH ltac:(discriminate)). cbn [separated] in *. rewrite <- !app_assoc, stretch_word by auto. f_equal. cbn [app].
      inversion F as [|? ? [V1 V2] _]; subst. destruct v as [|c v]; [congruence|]. 
      assert (C : Ascii.eqb c colon = false) by (apply Ascii.eqb_neq; intros ->; apply V2; now left).
      cbn [app] in *. rewrite stretch_skip by auto. rewrite <- !app_assoc in IH. rewrite <- ?app_assoc. f_equal. exact IH.
Qed.
Definition ends (l : list text) : list text := match l with [] => [[]] | _ => l end.
Lemma ends_nonempty l : ends l <> []. Proof. destruct l; discriminate. Qed.
Lemma separated_ends sep l : separated sep (ends l) = separated sep l. Proof. destruct l; reflexivity. Qed.
Lemma widen_gap fuel : forall l r k, (l = [[]] \/ l <> [] /\ Forall (fun w => w <> [] /\ ~ In colon w) l) ->
  r <> [] -> Forall (fun w => ~ In colon w) r -> (List.length l + S k + List.length r <= 8)%nat -> (8 - (List.length l + S k + List.length r) <= fuel)%nat ->
  widen fuel (separated colon (l ++ [] :: repeat [] k ++ r)) = Ok (separated colon (l ++ repeat [] (8 - List.length l - List.length r) ++ r)).
Proof.
  induction fuel as [|f IH]; intros l r k HL HR FR B1 B2;
    (assert (S2 : split colon (separated colon (l ++ [] :: repeat [] k ++ r)) = l ++ [] :: repeat [] k ++ r);
      [apply split_separated; [destruct l; discriminate|];
       apply Forall_app; split; [destruct HL as [->|[_ HL]]; [repeat constructor; auto|eapply Forall_impl; [|exact HL]; cbv beta; tauto]|];
       constructor; [auto|]; apply Forall_app; split; [apply Forall_forall; intros x X; apply repeat_spec in X; subst; auto|auto]|]).
  - cbn [widen]. rewrite S2, app_length. cbn [List.length]. rewrite app_length, repeat_length.
    replace (8 - List.length l - List.length r)%nat with (S k) by lia. cbn [repeat app].
    rewrite (proj2 (Nat.ltb_ge _ _)) by lia. reflexivity.
  - cbn [widen]. rewrite S2, app_length. cbn [List.length]. rewrite app_length, repeat_length.
    destruct (Nat.ltb_spec (List.length l + S (k + List.length r)) 8) as [Q|Q].
    + assert (E : stretch (separated colon (l ++ [] :: repeat [] k ++ r)) = separated colon (l ++ [] :: repeat [] (S k) ++ r)).
      { apply (stretch_gap l (repeat [] k ++ r) HL). intros H. apply app_eq_nil in H. tauto. }
      rewrite E. apply IH; auto; lia.
    + replace (8 - List.length l - List.length r)%nat with (S k) by lia. reflexivity.
Qed.
Lemma ipv6_compressed l r ns ms : Forall2 group_ok l ns -> Forall2 group_ok r ms ->
  (List.length l + List.length r <= 6 \/ (List.length l + List.length r = 7 /\ l <> [] /\ r <> []))%nat ->
  normalise_bytes (separated ":" l ++ T "::" ++ separated ":" r) = Ok (weigh 65536 (ns ++ repeat 0 (8 - List.length l - List.length r) ++ ms)).
Proof.
  intros FL FR B. pose proof (F2_length _ _ _ FL) as LL. pose proof (F2_length _ _ _ FR) as LR.
  assert (E : separated ":" l ++ T "::" ++ separated ":" r = separated colon (ends l ++ [] :: repeat [] 0 ++ ends r)).
  { rewrite <- (separated_ends _ l), <- (separated_ends _ r). change (T "::") with [colon; colon].
    pose proof (ends_nonempty l) as L1. pose proof (ends_nonempty r) as R1. change ([] :: repeat [] 0 ++ ends r) with ([[]] ++ ends r).
    rewrite !separated_app by (auto; discriminate). cbn [separated app]. reflexivity. }
  assert (G : forall x xs, Forall2 group_ok x xs -> Forall (fun w => w <> [] /\ ~ In colon w) x).
  { intros x xs F. eapply Forall2_left; [|exact F]. intros w n [N _]. split; [eapply numeral_nonempty; eauto|eapply numeral_not_in; [eauto|apply colon_not_digit]]. }
  assert (HL : ends l = [[]] \/ ends l <> [] /\ Forall (fun w => w <> [] /\ ~ In colon w) (ends l)).
  { destruct l as [|w l]; [left; reflexivity|right]. split; [discriminate|]. cbn [ends]. eapply G; eauto. }
  assert (HR : Forall (fun w => ~ In colon w) (ends r)).
  { destruct r as [|w r]; [repeat constructor; auto|]. eapply Forall_impl; [|eapply G; eauto]. cbv beta. tauto. }
  assert (N1 : List.length (ends l) = Nat.max 1 (List.length l)) by (destruct l; reflexivity || (cbn; lia)).
  assert (N2 : List.length (ends r) = Nat.max 1 (List.length r)) by (destruct r; reflexivity || (cbn; lia)).
  assert (B' : (List.length (ends l) + 1 + List.length (ends r) <= 8)%nat).
  { rewrite N1, N2. destruct l, r; cbn [List.length] in *; try lia; destruct B as [B|[B [B1 B2]]]; try congruence; lia. }
  assert (S2 : split colon (separated colon (ends l ++ [] :: repeat [] 0 ++ ends r)) = ends l ++ [] :: repeat [] 0 ++ ends r).
  { apply split_separated; [destruct (ends l); discriminate|]. apply Forall_app. split.
    - destruct HL as [->|[_ HL]]; [repeat constructor; auto|eapply Forall_impl; [|exact HL]; cbv beta; tauto].
    - constructor; auto. }
  pose proof (widen_gap 8 (ends l) (ends r) 0 HL (ends_nonempty r) HR ltac:(lia) ltac:(lia)) as W.
  set (z := (8 - List.length (ends l) - List.length (ends r))%nat) in *.
  assert (S3 : split colon (separated colon (ends l ++ repeat [] z ++ ends r)) = ends l ++ repeat [] z ++ ends r).
  { apply split_separated; [pose proof (ends_nonempty l); destruct (ends l); [congruence|discriminate]|]. apply Forall_app. split.
    - destruct HL as [->|[_ HL]]; [repeat constructor; auto|eapply Forall_impl; [|exact HL]; cbv beta; tauto].
    - apply Forall_app. split; [apply Forall_forall; intros x X; apply repeat_spec in X; subst; auto|auto]. }
  assert (C : contains (T "::") (separated ":" l ++ T "::" ++ separated ":" r) = true) by (apply contains_spec; eauto).
  unfold normalise_bytes. rewrite C, andb_true_r, E, S2.
  replace (Nat.eqb _ 8 || Nat.leb 3 _) with true.
  2:{ symmetry. apply orb_true_iff. right. apply Nat.leb_le. rewrite app_length. cbn [List.length repeat app]. lia. }
  unfold parse_ipv6. rewrite W. cbn [rbind]. rewrite S3. replace (List.length (ends l ++ repeat [] z ++ ends r)) with 8%nat.
  2:{ rewrite !app_length, repeat_length. lia. }
  cbn [Nat.eqb]. change 0 with (0 * 2 ^ (112 + 16)) at 1.
  assert (BL : Forall2 blank_or (ends l) (match ns with [] => [0] | _ => ns end)).
  { destruct FL as [|w n l' ns' H F]; [repeat constructor|]. constructor; [right; auto|]. clear - F. induction F; constructor; [right|]; auto. }
  assert (BR : Forall2 blank_or (ends r) (match ms with [] => [0] | _ => ms end)).
  { destruct FR as [|w n l' ns' H F]; [repeat constructor|]. constructor; [right; auto|]. clear - F. induction F; constructor; [right|]; auto. }
  rewrite (read_groups_ok (ends l ++ repeat [] z ++ ends r) ((match ns with [] => [0] | _ => ns end) ++ repeat 0 z ++ (match ms with [] => [0] | _ => ms end)));
    [|apply Forall2_app; [auto|apply Forall2_app; [|auto]]| |].
  - f_equal. unfold weigh. f_equal.
    assert (EL : match ns with [] => [0] | _ => ns end = ns ++ repeat 0 (1 - List.length ns)) by (destruct ns; cbn [List.length Nat.sub repeat]; [reflexivity|destruct (List.length ns); cbn; now rewrite app_nil_r]).
    assert (ER : match ms with [] => [0] | _ => ms end = repeat 0 (1 - List.length ms) ++ ms) by (destruct ms; cbn [List.length Nat.sub repeat]; [reflexivity|destruct (List.length ms); reflexivity]).
    rewrite EL, ER, <- !app_assoc. f_equal. rewrite !app_assoc, <- !repeat_app. f_equal. f_equal. lia.
  - clear. induction z; constructor; [left; auto|auto].
  - lia.
  - rewrite !app_length, repeat_length. lia.
Qed.

(** ** C65: normalise_string *)
Lemma read_digits_bad base s : (exists c, In c s /\ ord c <> 95 /\ digit_val c = None) -> forall acc prev, read_digits base acc prev s = None.
Proof.
  intros [x [X [N D]]]. induction s as [|c s IH]; intros acc prev; [destruct X|]. cbn [read_digits]. destruct X as [->|X].
  - rewrite (proj2 (Z.eqb_neq _ _) N), D. reflexivity.
  - destruct (ord c =? 95); [destruct prev; [apply IH; auto|reflexivity]|]. destruct (digit_val c) as [d|]; [|reflexivity].
    destruct (d <? base); [apply IH; auto|reflexivity].
Qed.
(** a character that cannot occur in an int() literal *)
Definition alien (c : ascii) : Prop := digit_val c = None /\ ord c <> 95 /\ ord c <> 45 /\ ord c <> 43 /\ is_space c = false.
Lemma read_unsigned_bad base s x : In x s -> alien x -> read_unsigned base s = None.
Proof.
  intros X [D [N1 [N2 [N3 N4]]]]. assert (R : forall b t, In x t -> read_digits b 0 false t = None) by (intros b t H; apply read_digits_bad; eauto).
  assert (A : forall t, In x t -> In x (after_prefix t)).
  { intros [|c t] H; [auto|]. cbn [after_prefix]. destruct (ord c =? 95) eqn:E; [|auto]. destruct H as [->|H]; [lia|auto]. }
  destruct s as [|z [|y t]]; [destruct X|cbn [read_unsigned]; apply R; auto|]. cbn [read_unsigned].
  assert (P : forall b (c : bool), (c = true -> x <> y /\ x <> z) -> c = true -> read_digits b 0 false (after_prefix t) = None).
  { intros b c H1 H2. apply R, A. destruct (H1 H2). destruct X as [X|[X|X]]; [congruence|congruence|auto]. }
  assert (NZ : ord z = 48 -> x <> z). { intros E ->. unfold digit_val in D. rewrite E in D. discriminate. }
  assert (NY : forall k, ord y = k -> (65 <= k <= 90 \/ 97 <= k <= 122) -> x <> y).
  { intros k E K ->. unfold digit_val in D. rewrite E in D. destruct ((48 <=? k) && (k <=? 57)); [discriminate|].
    destruct ((97 <=? k) && (k <=? 122)) eqn:E1; [discriminate|]. destruct ((65 <=? k) && (k <=? 90)) eqn:E2; [discriminate|]. lia. }
  destruct ((ord z =? 48) && (((ord y =? 120) || (ord y =? 88)) && ((base =? 16) || (base =? 0)))) eqn:E1.
  { eapply P; [|exact E1]. intros _. split; [apply (NY (ord y) eq_refl); lia|apply NZ; lia]. }
  destruct ((ord z =? 48) && (((ord y =? 111) || (ord y =? 79)) && ((base =? 8) || (base =? 0)))) eqn:E2.
  { eapply P; [|exact E2]. intros _. split; [apply (NY (ord y) eq_refl); lia|apply NZ; lia]. }
  destruct ((ord z =? 48) && (((ord y =? 98) || (ord y =? 66)) && ((base =? 2) || (base =? 0)))) eqn:E3.
  { eapply P; [|exact E3]. intros _. split; [apply (NY (ord y) eq_refl); lia|apply NZ; lia]. }
  destruct (base =? 0); rewrite R by auto; reflexivity.
Qed.
Lemma drop_space_in x s : is_space x = false -> In x s -> In x (drop_space s).
Proof.
  intros S. induction s as [|c s IH]; intros H; [auto|]. cbn [drop_space]. destruct (is_space c) eqn:E; [|auto].
  destruct H as [->|H]; [congruence|auto].
Qed.
Lemma py_int_bad base s x : In x s -> alien x -> py_int base s = Err ValueError.
Proof.
  intros X A. assert (X' : In x (strip s)).
  { unfold strip. apply -> in_rev. apply drop_space_in; [apply A|]. apply -> in_rev. apply drop_space_in; [apply A|auto]. }
  unfold py_int. destruct (strip s) as [|c t]; [destruct X'|]. destruct A as [A1 [A2 [A3 [A4 A5]]]].
  assert (AL : alien x) by (repeat split; auto).
  destruct (ord c =? 45) eqn:E1.
  - rewrite (read_unsigned_bad base t x); [reflexivity| |auto]. destruct X' as [->|X']; [lia|auto].
  - destruct (ord c =? 43) eqn:E2.
    + rewrite (read_unsigned_bad base t x); [reflexivity| |auto]. destruct X' as [->|X']; [lia|auto].
    + rewrite (read_unsigned_bad base (c :: t) x); auto.
Qed.
Lemma colon_alien : alien colon. Proof. repeat split; vm_compute; try reflexivity; intros Q; discriminate Q. Qed.
Lemma dot_alien : alien dot. Proof. repeat split; vm_compute; try reflexivity; intros Q; discriminate Q. Qed.
Lemma read_unsigned_dec0 s n : numeral 10 s n -> no_leading_zero s -> read_unsigned 0 s = Some n.
Proof.
  intros H L. pose proof (numeral_chars _ _ _ H) as F. pose proof (read_digits_numeral _ _ _ H) as R.
  destruct s as [|z [|x t]]; [now destruct (numeral_nonempty _ _ _ H)|exact R|]. cbn [read_unsigned].
  inversion F as [|z' s' Fz F']; subst. inversion F' as [|x' t' [d [J Q]] F'']; subst.
  destruct (table_facts _ _ J) as [V [_ [_ [_ [_ [_ [N1 [N2 [N3 N4]]]]]]]]].
  assert (E1 : (ord x =? 120) || (ord x =? 88) = false) by lia.
  assert (E2 : (ord x =? 111) || (ord x =? 79) = false) by lia.
  assert (E3 : (ord x =? 98) || (ord x =? 66) = false).
  { unfold digit_val in V. destruct (ord x =? 98) eqn:Q1; [replace (ord x) with 98 in V by lia; cbn in V; injection V; lia|].
    destruct (ord x =? 66) eqn:Q2; [replace (ord x) with 66 in V by lia; cbn in V; injection V; lia|reflexivity]. }
  rewrite E1, E2, E3, !andb_false_l, !andb_false_r. cbn [Z.eqb]. rewrite R.
  destruct (ord z =? 48) eqn:Z0; [|reflexivity]. exfalso. destruct L as [L|L]; [discriminate L|]. apply L. cbn [hd]. apply ord_inj.
  replace (ord "0"%char) with 48 by (vm_compute; reflexivity). lia.
Qed.
Lemma dec_string v : exists s, format_decimal v None = Ok s /\ normalise_string s = Ok v.
Proof.
  exists (format_num 10 0 v). split; [reflexivity|]. unfold normalise_string. enough (P : py_int 0 (format_num 10 0 v) = Ok v) by (rewrite P; reflexivity).
  assert (G : forall n, 0 <= n -> read_unsigned 0 (show 10 n) = Some n /\ exists c t, show 10 n = c :: t /\ ord c <> 45 /\ ord c <> 43 /\ forall x, In x (show 10 n) -> is_space x = false).
  { intros n N. pose proof (show_numeral 10 n ltac:(lia) N) as H. split; [apply read_unsigned_dec0; [auto|apply show_no_leading_zero; lia]|].
    destruct (numeral_head _ _ _ H) as [c [t [E [N1 N2]]]]. exists c, t. split; [auto|]. split; [auto|]. split; [auto|]. eapply numeral_no_space; eauto. }
  unfold format_num. destruct (v <? 0) eqn:E.
  - destruct (G (- v) ltac:(lia)) as [R [c [t [E1 [N1 [N2 NS]]]]]]. unfold zfill. cbn [Nat.sub repeat app]. unfold py_int.
    rewrite strip_id; [|intros x [<-|X]; [vm_compute; reflexivity|auto]]. cbn [ord]. replace (ord (chr 45) =? 45) with true by (vm_compute; reflexivity).
    rewrite R. cbn [option_map]. f_equal. lia.
  - destruct (G v ltac:(lia)) as [R [c [t [E1 [N1 [N2 NS]]]]]]. unfold zfill. cbn [Nat.sub repeat app]. unfold py_int.
    rewrite strip_id by auto. rewrite E1 in *. rewrite (proj2 (Z.eqb_neq _ _) N1), (proj2 (Z.eqb_neq _ _) N2), R. reflexivity.
Qed.
Lemma hex_string v : 0 <= v -> exists s, format_hex v None = Ok s /\ normalise_string s = Ok v.
Proof.
  intros V. exists (T "0x" ++ show 16 v). split.
  { unfold format_hex, with_mask, format_num. rewrite (proj2 (Z.ltb_ge _ _)) by lia. reflexivity. }
  unfold normalise_string. enough (P : py_int 0 (T "0x" ++ show 16 v) = Ok v) by (rewrite P; reflexivity).
  pose proof (show_numeral 16 v ltac:(lia) V) as H. unfold py_int. rewrite strip_id.
  2:{ intros x X. apply in_app_or in X as [X|X]; [destruct X as [<-|[<-|[]]]; vm_compute; reflexivity|eapply numeral_no_space; eauto]. }
  change (T "0x") with ["0"; "x"]%char. cbn [app].
  replace (ord "0"%char =? 45) with false by (vm_compute; reflexivity). replace (ord "0"%char =? 43) with false by (vm_compute; reflexivity).
  cbn [read_unsigned]. replace (ord "0"%char =? 48) with true by (vm_compute; reflexivity).
  replace (ord "x"%char =? 120) with true by (vm_compute; reflexivity). cbn [andb orb Z.eqb].
  assert (A : after_prefix (show 16 v) = show 16 v).
  { pose proof (numeral_chars _ _ _ H) as F. destruct (show 16 v) as [|c t]; [reflexivity|]. inversion F as [|? ? [d [J _]] _]; subst.
    cbn [after_prefix]. destruct (table_facts _ _ J) as [_ [_ [_ [_ [N _]]]]]. rewrite (proj2 (Z.eqb_neq _ _) N). reflexivity. }
  rewrite A, (read_digits_numeral _ _ _ H). reflexivity.
Qed.
Lemma in_separated (sep : ascii) l : (2 <= List.length l)%nat -> In sep (separated sep l).
Proof. destruct l as [|w [|v l]]; cbn [List.length]; try lia. intros _. cbn [separated]. apply in_or_app. right. now left. Qed.
Lemma address_string (sep : ascii) l : alien sep -> (2 <= List.length l)%nat -> normalise_string (separated sep l) = normalise_bytes (separated sep l).
Proof. intros A L. unfold normalise_string. rewrite (py_int_bad 0 _ sep); auto using in_separated. Qed.

(** ** C52 *)
Definition code (c : ascii) : Z := ord c - 96.
Definition bval (w : text) : Z := fold_left (fun acc c => acc * 26 + code c) w 0.
Definition word_ok (w : text) : Prop := Forall (fun c => 1 <= code c <= 26) w.
Lemma bval_acc w : forall acc, fold_left (fun a c => a * 26 + code c) w acc = acc * 26 ^ Z.of_nat (List.length w) + bval w.
Proof.
  induction w as [|d l IH] using rev_ind; intros acc; [cbn; lia|].
  unfold bval. rewrite !fold_left_app, IH, app_length, Nat2Z.inj_add, Z.pow_add_r by lia. cbn [fold_left List.length]. change (Z.of_nat 1) with 1. unfold bval. lia.
Qed.
Lemma bval_cons c w : bval (c :: w) = code c * 26 ^ Z.of_nat (List.length w) + bval w.
Proof. unfold bval at 1. cbn [fold_left]. rewrite bval_acc. lia. Qed.
Lemma bval_bounds w : word_ok w -> 26 ^ Z.of_nat (List.length w) - 1 <= 25 * bval w <= 26 * (26 ^ Z.of_nat (List.length w) - 1).
Proof.
  induction w as [|c w IH]; intros W; [cbn; lia|]. inversion W as [|? ? C W']; subst. specialize (IH W'). rewrite bval_cons.
  cbn [List.length]. rewrite Nat2Z.inj_succ, Z.pow_succ_r by lia. pose proof (Z.pow_pos_nonneg 26 (Z.of_nat (List.length w)) ltac:(lia) ltac:(lia)). nia.
Qed.
Lemma nat_ord c : Z.of_nat (nat_of_ascii c) = ord c.
Proof. unfold ord, nat_of_ascii. lia. Qed.
Lemma earlier_bval u v : word_ok u -> word_ok v -> earlier_word u v -> bval u < bval v.
Proof.
  intros U V [L|[L A]].
  - pose proof (bval_bounds _ U). pose proof (bval_bounds _ V).
    assert (26 ^ (Z.of_nat (List.length u) + 1) <= 26 ^ Z.of_nat (List.length v)) by (apply Z.pow_le_mono_r; lia).
    rewrite (Z.pow_add_r 26 (Z.of_nat (List.length u)) 1) in * by lia. change (26 ^ 1) with 26 in *. lia.
  - induction A as [a b u v H|a u v A IH]; inversion U as [|? ? U1 U2]; subst; inversion V as [|? ? V1 V2]; subst; rewrite !bval_cons; cbn [List.length] in L; injection L as L; rewrite L.
    + pose proof (bval_bounds _ U2). pose proof (bval_bounds _ V2). rewrite L in *. pose proof (nat_ord a). pose proof (nat_ord b). unfold code in *.
      pose proof (Z.pow_pos_nonneg 26 (Z.of_nat (List.length v)) ltac:(lia) ltac:(lia)). nia.
    + specialize (IH U2 V2 L). lia.
Qed.
Lemma alphabetic_total u : forall v, List.length u = List.length v -> u = v \/ alphabetic u v \/ alphabetic v u.
Proof.
  induction u as [|a u IH]; intros [|b v] L; try discriminate L; [auto|]. injection L as L.
  destruct (lt_eq_lt_dec (nat_of_ascii a) (nat_of_ascii b)) as [[H|H]|H].
  - right. left. now constructor.
  - assert (a = b) by (apply ord_inj; rewrite <- !nat_ord; lia). subst b. destruct (IH v L) as [Q|[Q|Q]]; [subst; auto|right; left; now apply alpha_later|right; right; now apply alpha_later].
  - right. right. now constructor.
Qed.
Lemma earlier_total u v : u = v \/ earlier_word u v \/ earlier_word v u.
Proof.
  unfold earlier_word. destruct (lt_eq_lt_dec (List.length u) (List.length v)) as [[H|H]|H]; [auto| |auto].
  destruct (alphabetic_total u v H) as [Q|[Q|Q]]; auto.
Qed.
Lemma bval_inj u v : word_ok u -> word_ok v -> bval u = bval v -> u = v.
Proof.
  intros U V E. destruct (earlier_total u v) as [H|[H|H]]; [auto| |]; apply earlier_bval in H; auto; lia.
Qed.
Lemma is_word_ok w : is_word w <-> w <> [] /\ word_ok w.
Proof.
  unfold is_word, word_ok. split; intros [N F]; (split; [auto|]); (eapply Forall_impl; [|exact F]); cbv beta; intros c.
  - intros [k [K ->]]. unfold code, letter. rewrite <- nat_ord, nat_ascii_embedding by lia. lia.
  - intros C. exists (Z.to_nat (code c - 1)). split; [lia|]. unfold letter. apply ord_inj. rewrite <- (nat_ord (ascii_of_nat _)), nat_ascii_embedding; unfold code in *; lia.
Qed.
Lemma alpha_loop_ok fuel : forall n ret, -1 <= n -> n < Z.of_nat fuel -> word_ok ret -> exists w, alpha_loop fuel n ret = Ok (w ++ ret) /\ word_ok w /\ bval w = n + 1 /\ (0 <= n -> w <> []).
Proof.
  induction fuel as [|f IH]; intros n ret N1 N2 W; cbn [alpha_loop].
  - rewrite (proj2 (Z.leb_gt 0 n)) by lia. exists []. cbn. repeat split; [constructor|lia|lia].
  - destruct (Z.leb_spec 0 n) as [N|N].
    + pose proof (Z.mod_pos_bound n 26 ltac:(lia)) as M. pose proof (Z.div_mod n 26 ltac:(lia)). assert (C : code (chr (97 + n mod 26)) = n mod 26 + 1) by (unfold code; rewrite ord_chr; lia).
      destruct (IH (n / 26 - 1) (chr (97 + n mod 26) :: ret)) as [w [E1 [E2 [E3 E4]]]]; [assert (0 <= n / 26) by (apply Z.div_pos; lia); lia|lia|constructor; [lia|auto]|].
      exists (w ++ [chr (97 + n mod 26)]). rewrite E1, <- app_assoc. split; [reflexivity|]. split; [apply Forall_app; split; [auto|repeat constructor; lia]|].
      split; [|intros _ Q; apply app_eq_nil in Q as [_ Q]; discriminate Q]. unfold bval. rewrite fold_left_app. cbn [fold_left]. fold (bval w). lia.
    + exists []. cbn. repeat split; [constructor|lia|lia].
Qed.
Lemma alpha_word n : 0 <= n -> exists w, alpha_z n = Ok w /\ is_word w /\ bval w = n + 1.
Proof.
  intros N. destruct (alpha_loop_ok (S (Z.to_nat n)) n [] ltac:(lia) ltac:(lia) ltac:(constructor)) as [w [E1 [E2 [E3 E4]]]].
  rewrite app_nil_r in E1. exists w. split; [exact E1|]. split; [apply is_word_ok; auto|auto].
Qed.
Lemma alpha_order n m u v : 0 <= n -> 0 <= m -> alpha_z n = Ok u -> alpha_z m = Ok v -> (n < m <-> earlier_word u v).
Proof.
  intros N M U V. destruct (alpha_word n N) as [u' [U1 [U2 U3]]]. destruct (alpha_word m M) as [v' [V1 [V2 V3]]].
  rewrite U1 in U. injection U as <-. rewrite V1 in V. injection V as <-. apply is_word_ok in U2 as [_ U2]. apply is_word_ok in V2 as [_ V2]. split.
  - intros L. destruct (earlier_total u' v') as [H|[H|H]]; [subst; lia|auto|]. apply earlier_bval in H; auto. lia.
  - intros H. apply earlier_bval in H; auto. lia.
Qed.
Lemma alpha_onto w : is_word w -> exists n, 0 <= n /\ alpha_z n = Ok w.
Proof.
  intros W. apply is_word_ok in W as [N W]. assert (B : 0 <= bval w - 1).
  { pose proof (bval_bounds w W). destruct w as [|c w]; [congruence|]. cbn [List.length] in *. rewrite Nat2Z.inj_succ, Z.pow_succ_r in * by lia.
    pose proof (Z.pow_pos_nonneg 26 (Z.of_nat (List.length w)) ltac:(lia) ltac:(lia)). lia. }
  exists (bval w - 1). split; [auto|]. destruct (alpha_word _ B) as [w' [E1 [E2 E3]]]. apply is_word_ok in E2 as [_ E2].
  assert (w' = w) by (apply bval_inj; auto; lia). congruence.
Qed.
Lemma alpha_upper n w : alpha_z n = Ok w -> alpha_Z n = Ok (map upper w).
Proof. unfold alpha_Z. intros ->. reflexivity. Qed.
Lemma alpha_capitals n w : alpha_z n = Ok w -> alpha_Z n = Ok (map (fun c => ascii_of_nat (nat_of_ascii c - 32)) w).
Proof.
  intros E. rewrite (alpha_upper _ _ E). f_equal. assert (W : word_ok w).
  { destruct (Z_lt_le_dec n 0) as [N|N].
    - unfold alpha_z in E. replace (Z.to_nat n) with 0%nat in E by lia. cbn [alpha_loop] in E. rewrite (proj2 (Z.leb_gt 0 n)) in E by lia. injection E as <-. constructor.
    - destruct (alpha_word n N) as [w' [E1 [E2 _]]]. apply is_word_ok in E2 as [_ E2]. congruence. }
  apply map_ext_in. intros c C. apply (proj1 (Forall_forall _ _) W) in C. unfold code in C. pose proof (nat_ord c). unfold upper.
  rewrite (proj2 (Z.leb_le _ _)), (proj2 (Z.leb_le _ _)) by lia. cbn [andb]. apply ord_inj. rewrite ord_chr by lia.
  rewrite <- (nat_ord (ascii_of_nat _)), nat_ascii_embedding; lia.
Qed.
