(** The values of SpecOvs.v are read as intended. *)
From Coq Require Import Lia ZifyBool ZifyNat.
From Verif Require Import SpecOvs FormatProofs OvsRegex.
Import Text.
Local Open Scope string_scope.
Local Open Scope list_scope.
Local Open Scope Z_scope.

Lemma numeral_app b u n v m : numeral b u n -> numeral b v m -> numeral b (u ++ v) (n * b ^ Z.of_nat (List.length v) + m).
Proof.
  intros U V. induction V as [c d J L|v m c d V IH J L].
  - cbn [List.length]. rewrite Z.pow_1_r. now constructor.
  - rewrite app_assoc, app_length, Nat.add_comm. cbn [List.length Nat.add]. rewrite Nat2Z.inj_succ, Z.pow_succ_r by lia.
    replace (n * (b * b ^ Z.of_nat (List.length v)) + (m * b + d)) with ((n * b ^ Z.of_nat (List.length v) + m) * b + d) by lia. now constructor.
Qed.
Lemma numeral_pairs l bs : Forall2 (numeral 16) l bs -> Forall (fun w => List.length w = 2%nat) l -> forall u n, numeral 16 u n ->
  numeral 16 (u ++ List.concat l) (fold_left (fun acc d => acc * 256 + d) bs n).
Proof.
  induction 1 as [|w b l bs W _ IH]; intros L u n U; cbn [List.concat fold_left]; [now rewrite app_nil_r|].
  inversion L as [|? ? L1 L2]; subst. rewrite app_assoc. apply IH; auto. change 256 with (16 ^ Z.of_nat 2). rewrite <- L1. now apply numeral_app.
Qed.
Lemma py_int_number s n : number_text s n -> py_int 0 s = Ok n.
Proof.
  intros [s' n' H L|s' n' H].
  - unfold py_int. rewrite strip_id by (eapply numeral_no_space; eauto). destruct (numeral_head _ _ _ H) as (c & t & -> & N1 & N2).
    rewrite (proj2 (Z.eqb_neq _ _) N1), (proj2 (Z.eqb_neq _ _) N2), (read_unsigned_dec0 _ _ H L). reflexivity.
  - unfold py_int. rewrite strip_id.
    2:{ intros x X. apply in_app_or in X as [X|X]; [destruct X as [<-|[<-|[]]]; vm_compute; reflexivity|eapply numeral_no_space; eauto]. }
    change (T "0x") with ["0"; "x"]%char. cbn [app].
    replace (ord "0"%char =? 45) with false by (vm_compute; reflexivity). replace (ord "0"%char =? 43) with false by (vm_compute; reflexivity).
    cbn [read_unsigned]. replace (ord "0"%char =? 48) with true by (vm_compute; reflexivity).
    replace (ord "x"%char =? 120) with true by (vm_compute; reflexivity). cbn [andb orb Z.eqb].
    assert (A : after_prefix s' = s').
    { pose proof (numeral_chars _ _ _ H) as F. destruct s' as [|c t]; [reflexivity|]. inversion F as [|? ? [d [J _]] _]; subst.
      cbn [after_prefix]. destruct (table_facts _ _ J) as [_ [_ [_ [_ [N _]]]]]. rewrite (proj2 (Z.eqb_neq _ _) N). reflexivity. }
    rewrite A, (read_digits_numeral _ _ _ H). reflexivity.
Qed.
Lemma read_number s n : number_text s n -> normalise_string s = Ok n.
Proof. intros H. unfold normalise_string. now rewrite (py_int_number s n H). Qed.
Lemma read_mac s n : mac_text s n -> normalise_string s = Ok n.
Proof.
  intros [l bs L F P]. rewrite address_string; [|apply colon_alien|lia].
  unfold normalise_bytes. change (separated ":" l) with (separated colon l). rewrite (split_numerals colon 16 l bs); [|apply colon_not_digit|destruct l; discriminate|exact F].
  rewrite L. cbn [Nat.eqb Nat.leb orb andb].
  assert (C : contains (T "::") (separated colon l) = false).
  { change (T "::") with [":"; ":"]%char. apply not_doubled. eapply Forall2_left; [|exact F]. intros x y H. split; [eapply numeral_nonempty; eauto|].
    eapply numeral_not_in; [eauto|apply colon_not_digit]. }
  rewrite C, split_word. 2:{ eapply not_in_separated; [discriminate|apply dot_not_digit|exact F]. }
  apply py_int_numeral; [lia|lia|]. destruct F as [|w b l bs W F]; [discriminate L|]. cbn [List.concat]. unfold weigh. cbn [fold_left].
  rewrite Z.mul_0_l, Z.add_0_l. inversion P as [|? ? P1 P2]; subst. now apply numeral_pairs.
Qed.
Lemma read_quad s n : quad_text s n -> normalise_string s = Ok n.
Proof.
  intros [l ns L F]. rewrite address_string; [|apply dot_alien|lia].
  assert (N : Forall2 (numeral 10) l ns) by (clear - F; induction F as [|x y l ns [H _] _ IH]; constructor; auto).
  unfold normalise_bytes. rewrite (split_word colon). 2:{ eapply not_in_separated; [discriminate|apply colon_not_digit|exact N]. }
  cbn [List.length Nat.eqb Nat.leb orb andb]. change (separated "." l) with (separated dot l). rewrite (split_numerals dot 10 l ns); [|apply dot_not_digit|destruct l; discriminate|exact N].
  destruct F as [|w0 a l ns [Fa Ra] F]; [discriminate L|]. destruct F as [|w1 b l ns [Fb Rb] F]; [discriminate L|].
  destruct F as [|w2 c l ns [Fc Rc] F]; [discriminate L|]. destruct F as [|w3 d l ns [Fd Rd] F]; [discriminate L|]. destruct F; [|discriminate L].
  unfold parse_ipv4. rewrite (py_int_numeral 10 w0 a), (py_int_numeral 10 w1 b), (py_int_numeral 10 w2 c), (py_int_numeral 10 w3 d) by (auto; lia). cbn [rbind].
  apply numeral_nonneg in Fa, Fb, Fc, Fd; try lia.
  rewrite (proj2 (Z.leb_le _ _)); [rewrite quad_value by lia; reflexivity|].
  assert (0 <= Z.lor (Z.lor (Z.lor a b) c) d < 256) by (repeat apply lor_le_255; lia). lia.
Qed.
Lemma in_colons (a b : text) : In colon (a ++ T "::" ++ b).
Proof. apply in_or_app. right. now left. Qed.
Lemma read_ip6 s n : ip6_text s n -> normalise_string s = Ok n.
Proof.
  intros [l ns L F|l r ns ms Fl Fr L].
  - rewrite address_string; [|apply colon_alien|lia]. now apply ipv6_full.
  - unfold normalise_string. rewrite (py_int_bad 0 _ colon); [|apply in_colons|apply colon_alien]. now apply ipv6_compressed.
Qed.
Lemma read_value s n : value_text s n -> normalise_string s = Ok n.
Proof. intros [H|[H|[H|H]]]; [now apply read_number|now apply read_mac|now apply read_quad|now apply read_ip6]. Qed.

(** ** Their characters *)
Definition vchar (c : ascii) : bool := existsb (Ascii.eqb c) (T "0123456789abcdefABCDEFx:.").
Definition dchar (c : ascii) : bool := existsb (Ascii.eqb c) (T "0123456789abcdefABCDEFx").
Lemma all_app f u v : all f (u ++ v) <-> all f u /\ all f v.
Proof. unfold all. apply Forall_app. Qed.
Lemma table_dchar_sweep : forallb (fun cd => dchar (fst cd) && vchar (fst cd)) digit_table = true. Proof. vm_compute. reflexivity. Qed.
Lemma table_dchar c d : In (c, d) digit_table -> dchar c = true /\ vchar c = true.
Proof. intros H. assert (S := table_dchar_sweep). rewrite forallb_forall in S. specialize (S _ H). cbn [fst] in S. now apply andb_true_iff in S. Qed.
Lemma numeral_dchars b s n : numeral b s n -> all dchar s.
Proof. intros H. eapply Forall_impl; [|exact (numeral_chars _ _ _ H)]. intros c (d & J & _). now apply (table_dchar c d). Qed.
Lemma numeral_vchars b s n : numeral b s n -> all vchar s.
Proof. intros H. eapply Forall_impl; [|exact (numeral_chars _ _ _ H)]. intros c (d & J & _). now apply (table_dchar c d). Qed.
Lemma number_dchars s n : number_text s n -> all dchar s.
Proof. intros [s' n' H _|s' n' H]; [now apply (numeral_dchars _ _ _ H)|]. apply all_app. split; [repeat constructor|now apply (numeral_dchars _ _ _ H)]. Qed.
Lemma sub_class (f g : ascii -> bool) : forallb (fun c => negb (f c) || g c) all_ascii = true -> forall s, all f s -> all g s.
Proof.
  intros H s A. eapply Forall_impl; [|exact A]. intros c E. rewrite forallb_forall in H. specialize (H c (in_all_ascii c)). rewrite E in H. exact H.
Qed.
Lemma dchar_vchar s : all dchar s -> all vchar s. Proof. apply sub_class. vm_compute. reflexivity. Qed.
Lemma separated_chars (sep : ascii) b l ns : vchar sep = true -> Forall2 (numeral b) l ns -> all vchar (separated sep l).
Proof.
  intros S F. induction F as [|w n l ns W F IH]; [constructor|]. cbn [separated]. apply all_app. split; [now apply (numeral_vchars _ _ _ W)|].
  destruct l as [|w' l]; [constructor|]. constructor; [exact S|exact IH].
Qed.
Lemma F2_numeral b (Q : text -> Z -> Prop) l ns : (forall w n, Q w n -> numeral b w n) -> Forall2 Q l ns -> Forall2 (numeral b) l ns.
Proof. intros H F. induction F; constructor; auto. Qed.
Lemma value_vchars s n : value_text s n -> all vchar s.
Proof.
  intros [H|[[l bs L F P]|[[l ns L F]|[l ns L F|l r ns ms Fl Fr L]]]].
  - apply dchar_vchar. now apply (number_dchars s n).
  - now apply (separated_chars _ 16 l bs).
  - apply (separated_chars _ 10 l ns); [reflexivity|]. eapply F2_numeral; [|exact F]. cbn beta. tauto.
  - apply (separated_chars _ 16 l ns); [reflexivity|]. eapply F2_numeral; [|exact F]. intros w m [H _]. exact H.
  - apply all_app. split; [|apply all_app; split; [repeat constructor|]].
    + apply (separated_chars _ 16 l ns); [reflexivity|]. eapply F2_numeral; [|exact Fl]. intros w m [H _]. exact H.
    + apply (separated_chars _ 16 r ms); [reflexivity|]. eapply F2_numeral; [|exact Fr]. intros w m [H _]. exact H.
Qed.
Lemma number_nonempty s n : number_text s n -> s <> [].
Proof. intros [s' n' H _|s' n' H]; [now apply (numeral_nonempty _ _ _ H)|discriminate]. Qed.
Lemma value_nonempty s n : value_text s n -> s <> [].
Proof.
  intros H E. subst s. assert (R := read_value _ _ H). destruct H as [H|[H|[H|H]]].
  - now apply (number_nonempty _ _ H).
  - inversion H as [l bs L F P E]. destruct l as [|w [|w' l]]; try discriminate L. cbn [separated] in E. apply app_eq_nil in E as [_ E]. discriminate E.
  - inversion H as [l bs L F E]. destruct l as [|w [|w' l]]; try discriminate L. cbn [separated] in E. apply app_eq_nil in E as [_ E]. discriminate E.
  - inversion H as [l ns L F E|l r ns ms Fl Fr L E].
    + destruct l as [|w [|w' l]]; try discriminate L. cbn [separated] in E. apply app_eq_nil in E as [_ E]. discriminate E.
    + apply app_eq_nil in E as [_ E]. discriminate E.
Qed.
Lemma number_value s n : number_text s n -> value_text s n. Proof. now left. Qed.
Lemma number_head s n : number_text s n -> exists d t, s = d :: t /\ existsb (Ascii.eqb d) (T "0123456789") = true.
Proof.
  intros [s' n' H _|s' n' H]; [|exists "0"%char; eexists; split; reflexivity].
  assert (F := numeral_chars _ _ _ H). destruct s' as [|c t]; [now destruct (numeral_nonempty _ _ _ H)|]. exists c, t. split; [reflexivity|].
  inversion F as [|? ? (d & J & L) _]; subst. revert J L. clear.
  assert (S : forallb (fun cd => negb (snd cd <? 10) || existsb (Ascii.eqb (fst cd)) (T "0123456789")) digit_table = true) by (vm_compute; reflexivity).
  rewrite forallb_forall in S. intros J L. specialize (S _ J). cbn [fst snd] in S. rewrite (proj2 (Z.ltb_lt _ _) L) in S. exact S.
Qed.
Lemma port_chars s p : port_text s p -> all (fun c => dchar c || name_char c) s /\ s <> [].
Proof.
  intros [s' n H|s' n H].
  - split; [|now apply (number_nonempty _ _ H)]. eapply sub_class; [|exact (number_dchars _ _ H)]. vm_compute. reflexivity.
  - assert (S : forallb (fun e => forallb (fun c => dchar c || name_char c) (T (fst e)) && negb (text_eqb (T (fst e)) [])) port_names = true) by (vm_compute; reflexivity).
    rewrite forallb_forall in S. specialize (S _ H). cbn [fst] in S. apply andb_true_iff in S as [S1 S2]. split.
    + apply Forall_forall. now apply forallb_forall.
    + intros E. rewrite E in S2. discriminate S2.
Qed.
Lemma read_port s p : port_text s p -> parse_port s = Ok p.
Proof.
  intros [s' n H|s' n H].
  - unfold parse_port. rewrite (py_int_number _ _ H).
    destruct (number_head _ _ H) as (d & t & -> & D).
    assert (N : sassoc (("OFPP_" ++ str_upper (S_ (d :: t)))%string) ofp_port_no = None); [|now rewrite N].
    assert (U : forall x s, str_upper (String x s) = String (upper x) (str_upper s)) by reflexivity.
    unfold S_. cbn [string_of_list_ascii]. rewrite U. generalize (str_upper (string_of_list_ascii t)). intros u.
    revert D. cbn [existsb T list_ascii_of_string]. rewrite !orb_true_iff, !Ascii.eqb_eq. intros D.
    repeat (destruct D as [->|D]; [reflexivity|]). discriminate D.
  - revert H. unfold port_names. cbn [In]. intros H.
    repeat (destruct H as [[= <- <-]|H]; [vm_compute; reflexivity|]). destruct H.
Qed.
