(** C99: the text of a match (/repo/ofequivalence/rule.py:1220-1228). *)
From Verif Require Import Base Text Format SpecText FormatProofs FibTool MatchText SpecMatchText PathText SpecPathText PropPathText.
Open Scope Z_scope.

(** No separator of the text of a match, and no newline. *)
Definition clean (t : text) : Prop := ~ In ","%char t /\ ~ In "/"%char t /\ ~ In newline t.

Lemma clean_numeral base s n : numeral base s n -> clean s.
Proof. intros H. repeat split; (eapply numeral_not_in; [exact H|now apply not_digit]). Qed.

Lemma clean_separated base (sep : ascii) l ns : sep <> ","%char -> sep <> "/"%char -> sep <> newline ->
  Forall2 (numeral base) l ns -> clean (separated sep l).
Proof.
  intros N1 N2 N3 F. repeat split; (eapply not_in_separated; [|now apply not_digit|exact F]); congruence.
Qed.

Lemma numeral_fun base s n m : base <> 0 -> base <> 2 -> numeral base s n -> numeral base s m -> n = m.
Proof.
  intros B0 B2 H1 H2. pose proof (py_int_numeral _ _ _ B0 B2 H1). pose proof (py_int_numeral _ _ _ B0 B2 H2). congruence.
Qed.

(** Each formatter writes a clean text from which the value can be told. *)
Lemma formatter_text k v : in_range k v -> exists t, formatter k v None = Ok t /\ clean t.
Proof.
  destruct k; cbn [in_range formatter]; intros V.
  - exists (show 10 v). split; [cbn; now rewrite format_dec|]. eapply clean_numeral, show_numeral; lia.
  - exists (T "0x" ++ show 16 v). split.
    { unfold format_hex, with_mask, format_num. rewrite (proj2 (Z.ltb_ge _ _)) by lia. reflexivity. }
    destruct (clean_numeral 16 (show 16 v) v) as (A & B & C); [apply show_numeral; lia|].
    repeat split; intros [H|[H|H]]; try discriminate H; contradiction.
  - destruct (ethernet_text v V) as (l & bs & E & _ & F & _). eexists. split; [exact E|].
    eapply clean_separated; [..|exact F]; discriminate.
  - destruct (hex_bytes v 16 ltac:(lia) V) as (l & bs & E & F & _). exists (separated ":" l).
    split; [|eapply clean_separated; [..|exact F]; discriminate].
    unfold format_ipv6, with_mask. change (2 * 16)%nat with 32%nat in E. rewrite E. f_equal. apply join_separated.
  - destruct (ipv4_text_ok v V) as (a & b & c & d & wa & wb & wc & wd & _ & F & E & _). eexists. split; [exact E|].
    eapply (clean_separated 10 _ _ [a; b; c; d]); [discriminate..|].
    repeat match goal with H : Forall2 _ (_ :: _) _ |- _ => inversion H; clear H; subst end.
    repeat constructor; tauto.
Qed.

Lemma formatter_inj k v w t : in_range k v -> in_range k w ->
  formatter k v None = Ok t -> formatter k w None = Ok t -> v = w.
Proof.
  destruct k; cbn [in_range formatter]; intros V W Ev Ew.
  - destruct (dec_string v) as (s & A & B), (dec_string w) as (s' & A' & B'). congruence.
  - destruct (hex_string v V) as (s & A & B), (hex_string w W) as (s' & A' & B'). congruence.
  - destruct (ethernet_text v V) as (l & bs & A & _ & _ & _ & _ & B), (ethernet_text w W) as (l' & bs' & A' & _ & _ & _ & _ & B'). congruence.
  - destruct (hex_bytes v 16 ltac:(lia) V) as (l & bs & E & F & _ & _ & _ & L & N & _),
             (hex_bytes w 16 ltac:(lia) W) as (l' & bs' & E' & F' & _ & _ & _ & L' & N' & _).
    change (2 * 16)%nat with 32%nat in E, E'. unfold format_ipv6, with_mask in Ev, Ew.
    rewrite E in Ev. rewrite E' in Ew. change (T ":") with [colon] in *. rewrite join_separated in Ev, Ew.
    assert (Sl : Text.split colon (separated colon l) = l)
      by (eapply split_numerals; [apply colon_not_digit|destruct l; discriminate|eauto]).
    assert (Sl' : Text.split colon (separated colon l') = l')
      by (eapply split_numerals; [apply colon_not_digit|destruct l'; discriminate|eauto]).
    assert (X : l = l') by congruence. rewrite X in N. eapply numeral_fun; [| |exact N|exact N']; lia.
  - destruct (ipv4_text_ok v V) as (a & b & c & d & wa & wb & wc & wd & _ & _ & E & N),
             (ipv4_text_ok w W) as (a' & b' & c' & d' & wa' & wb' & wc' & wd' & _ & _ & E' & N'). congruence.
Qed.

Lemma formatter_masked k v m t u : formatter k v None = Ok t -> formatter k m None = Ok u ->
  formatter k v (Some m) = Ok (t ++ "/"%char :: u).
Proof.
  destruct k; cbn [formatter]; unfold format_decimal, format_hex, format_ethernet, format_ipv6, format_ipv4, with_mask;
    intros A B; rewrite A, B; reflexivity.
Qed.

(** The text of a value with or without a mask. *)
Lemma value_text k v mask : in_range k v -> match mask with Some x => in_range k x | None => True end ->
  exists t, formatter k v mask = Ok t /\ ~ In ","%char t /\ ~ In newline t.
Proof.
  intros V M. destruct (formatter_text _ _ V) as (t & E & A & B & C). destruct mask as [m|].
  - destruct (formatter_text _ _ M) as (u & E' & A' & B' & C'). exists (t ++ "/"%char :: u).
    split; [now apply formatter_masked|].
    split; intros H; apply in_app_or in H; destruct H as [H|[H|H]]; try discriminate H; contradiction.
  - exists t. auto.
Qed.

Lemma value_inj k v mask w mask' t :
  in_range k v -> match mask with Some x => in_range k x | None => True end ->
  in_range k w -> match mask' with Some x => in_range k x | None => True end ->
  formatter k v mask = Ok t -> formatter k w mask' = Ok t -> v = w /\ mask = mask'.
Proof.
  intros V M W M' E E'.
  destruct (formatter_text _ _ V) as (a & Ea & _ & Na & _), (formatter_text _ _ W) as (b & Eb & _ & Nb & _).
  destruct mask as [m|], mask' as [m'|].
  - destruct (formatter_text _ _ M) as (c & Ec & _ & Nc & _), (formatter_text _ _ M') as (d & Ed & _ & Nd & _).
    rewrite (formatter_masked _ _ _ _ _ Ea Ec) in E. rewrite (formatter_masked _ _ _ _ _ Eb Ed) in E'.
    assert (X : a ++ "/"%char :: c = b ++ "/"%char :: d) by congruence.
    pose proof (split_first _ _ _ _ _ X Na Nb) as H. subst b. apply app_inv_head in X. injection X as ->.
    split; [eapply formatter_inj; [exact V|exact W|exact Ea|exact Eb]|].
    f_equal. eapply formatter_inj; [exact M|exact M'|exact Ec|exact Ed].
  - exfalso. destruct (formatter_text _ _ M) as (c & Ec & _).
    rewrite (formatter_masked _ _ _ _ _ Ea Ec) in E. apply Nb.
    assert (X : b = a ++ "/"%char :: c) by congruence. rewrite X. apply in_or_app. right. now left.
  - exfalso. destruct (formatter_text _ _ M') as (d & Ed & _).
    rewrite (formatter_masked _ _ _ _ _ Eb Ed) in E'. apply Na.
    assert (X : a = b ++ "/"%char :: d) by congruence. rewrite X. apply in_or_app. right. now left.
  - split; [|reflexivity]. eapply formatter_inj; [exact V|exact W|exact E|exact E'].
Qed.

Definition entry_ok (fmt : text -> option kind) (e : text * (Z * option Z)) : Prop :=
  name_ok (fst e) /\
  let k := match fmt (fst e) with Some k => k | None => KHex end in
  in_range k (fst (snd e)) /\ match snd (snd e) with Some x => in_range k x | None => True end.

Lemma entry_eq fmt key v mask : entry_str fmt (key, (v, mask)) =
  (do t <- formatter (match fmt key with Some k => k | None => KHex end) v mask; Ok (key ++ T ": " ++ t)).
Proof. unfold entry_str. destruct (fmt key); reflexivity. Qed.

Lemma entry_text fmt e : entry_ok fmt e ->
  exists t, entry_str fmt e = Ok t /\ ~ In ","%char t /\ ~ In newline t.
Proof.
  destruct e as [key [v mask]]. intros ((N1 & N2 & N3) & V & M). cbn [fst snd] in *.
  destruct (value_text _ _ _ V M) as (t & E & A & B). exists (key ++ T ": " ++ t).
  split; [rewrite entry_eq, E; reflexivity|].
  split; intros H; apply in_app_or in H; destruct H as [H|[H|[H|H]]]; try discriminate H; contradiction.
Qed.

Lemma entry_inj fmt e e' t : entry_ok fmt e -> entry_ok fmt e' ->
  entry_str fmt e = Ok t -> entry_str fmt e' = Ok t -> e = e'.
Proof.
  destruct e as [key [v mask]], e' as [key' [v' mask']].
  intros ((N & _) & V & M) ((N' & _) & V' & M'). cbn [fst snd] in *. rewrite !entry_eq.
  destruct (value_text _ _ _ V M) as (a & Ea & _), (value_text _ _ _ V' M') as (b & Eb & _).
  rewrite Ea, Eb. cbn [rbind]. intros E E'.
  assert (X : key ++ ":"%char :: " "%char :: a = key' ++ ":"%char :: " "%char :: b).
  { change (key ++ T ": " ++ a) with (key ++ ":"%char :: " "%char :: a) in E.
    change (key' ++ T ": " ++ b) with (key' ++ ":"%char :: " "%char :: b) in E'. congruence. }
  pose proof (split_first _ _ _ _ _ X N N') as H. subst key'. apply app_inv_head in X. injection X as ->.
  destruct (value_inj _ _ _ _ _ _ V M V' M' Ea Eb) as [-> ->]. reflexivity.
Qed.

Lemma entries_text fmt m : Forall (entry_ok fmt) m -> exists l, rall (map (entry_str fmt) m) = Ok l /\
  Forall2 (fun e t => entry_str fmt e = Ok t) m l /\ Forall (fun t => ~ In ","%char t /\ ~ In newline t) l.
Proof.
  induction 1 as [|e m H F IH]; [exists []; repeat constructor|].
  destruct (entry_text _ _ H) as (t & E & A), IH as (l & El & F2 & N).
  exists (t :: l). cbn [map rall]. rewrite E. cbn [rbind]. rewrite El. repeat constructor; auto; tauto.
Qed.

Lemma split_join l : forall x, Forall (fun t => ~ In ","%char t) (x :: l) ->
  Text.split "," (join (T ", ") (x :: l)) = x :: map (cons " "%char) l.
Proof.
  induction l as [|y l IH]; intros x F; inversion F as [|? ? Hx Fl]; subst.
  - now apply split_word.
  - change (join (T ", ") (x :: y :: l)) with (x ++ ","%char :: " "%char :: join (T ", ") (y :: l)).
    rewrite split_app by exact Hx. cbn [Text.split]. replace (Ascii.eqb " " ",") with false by reflexivity.
    rewrite (IH y Fl). reflexivity.
Qed.

Lemma join_inj l m : Forall (fun t => ~ In ","%char t) l -> Forall (fun t => ~ In ","%char t) m ->
  Forall (fun t => t <> []) l -> Forall (fun t => t <> []) m ->
  join (T ", ") l = join (T ", ") m -> l = m.
Proof.
  assert (N : forall x l, x <> [] -> join (T ", ") (x :: l) <> []).
  { intros [|c x] l0 H; [congruence|]. destruct l0; discriminate. }
  destruct l as [|x l], m as [|y m]; intros F G A B E; [reflexivity| | |].
  - inversion B; subst. now destruct (N y m).
  - inversion A; subst. now destruct (N x l).
  - pose proof (split_join _ _ F) as S1. pose proof (split_join _ _ G) as S2. rewrite E, S2 in S1.
    injection S1 as -> S1. f_equal. clear - S1. revert l S1.
    induction m as [|a m IH]; intros [|b l] S1; try reflexivity; try discriminate. injection S1 as -> S1. f_equal. auto.
Qed.

Lemma readable_ok fmt m : readable fmt m -> Forall (entry_ok fmt) m.
Proof. intros R. apply Forall_forall. intros [n [v mask]] H. exact (R _ _ _ H). Qed.

Lemma entry_nonempty fmt e t : entry_str fmt e = Ok t -> t <> [].
Proof.
  destruct e as [key [v mask]]. rewrite entry_eq.
  destruct (formatter _ v mask); [|discriminate]. cbn. intros E ->. injection E as E. destruct key; discriminate E.
Qed.

(** The text of a readable match exists and is one line. *)
Theorem C99_one_line : forall fmt m, readable fmt m -> exists t, match_str fmt m = Ok t /\ ~ In newline t.
Proof.
  intros fmt m R. destruct (entries_text _ _ (readable_ok _ _ R)) as (l & E & _ & F).
  unfold match_str. rewrite E. cbn [rbind]. eexists. split; [reflexivity|].
  intros [H|H]; [discriminate H|]. apply (in_app_or (join (T ", ") l) (T "}")) in H. destruct H as [H|[H|[]]]; [|discriminate H].
  revert H. clear E. induction F as [|x l Hx F IH]; [intros []|].
  destruct l as [|y l]; [exact (proj2 Hx)|].
  change (join (T ", ") (x :: y :: l)) with (x ++ ","%char :: " "%char :: join (T ", ") (y :: l)).
  intros H. apply in_app_or in H. destruct H as [H|[H|[H|H]]]; try discriminate H; [now apply Hx|auto].
Qed.

(** Different matches have different texts: the text tells the fields in order, their
    values and whether and how they are masked. *)
Theorem C99_unambiguous : forall fmt m m' t, readable fmt m -> readable fmt m' ->
  match_str fmt m = Ok t -> match_str fmt m' = Ok t -> m = m'.
Proof.
  intros fmt m m' t R R'. pose proof (readable_ok _ _ R) as O. pose proof (readable_ok _ _ R') as O'.
  destruct (entries_text _ _ O) as (l & E & F & N), (entries_text _ _ O') as (l' & E' & F' & N').
  unfold match_str. rewrite E, E'. cbn [rbind]. intros A B.
  assert (X : T "{" ++ join (T ", ") l ++ T "}" = T "{" ++ join (T ", ") l' ++ T "}") by congruence.
  apply app_inv_head, app_inv_tail in X.
  assert (P : forall m l, Forall2 (fun e t => entry_str fmt e = Ok t) m l -> Forall (fun t => t <> []) l).
  { clear. induction 1; constructor; eauto using entry_nonempty. }
  assert (Q : l = l').
  { apply join_inj; eauto; eapply Forall_impl; [|exact N| |exact N']; cbn; tauto. }
  subst l'. clear - F F' O O'. revert m' F' O'. induction F as [|e t m l H F IH]; intros m' F' O'; inversion F'; subst.
  - reflexivity.
  - inversion O; inversion O'; subst. f_equal; [eapply entry_inj; eauto|auto].
Qed.

(** So the rules of C98 are shown on one line per part as far as their match goes, and the
    report tells the match of every rule. *)
Theorem C99_report : forall fmt m m' t t' p c i b,
  readable fmt m -> readable fmt m' -> match_str fmt m = Ok t -> match_str fmt m' = Ok t' ->
  ~ In nl p -> ~ In nl c -> ~ In nl i -> ~ In nl b ->
  format_path [Shown p c t i b] = format_path [Shown p c t' i b] -> m = m'.
Proof.
  intros fmt m m' t t' p c i b R R' E E' Np Nc Ni Nb H.
  destruct (C99_one_line _ _ R) as (x & X & Nx), (C99_one_line _ _ R') as (y & Y & Ny).
  rewrite E in X. rewrite E' in Y. injection X as <-. injection Y as <-.
  apply C98_path in H; [|repeat constructor; auto..].
  injection H as <-. eapply C99_unambiguous; eauto.
Qed.

(** Outside its range a format is not faithful: two values of 49 bits look the same as MAC
    addresses. *)
Theorem C99_range_refuted : exists fmt m m' t, m <> m' /\ match_str fmt m = Ok t /\ match_str fmt m' = Ok t.
Proof.
  exists (fun _ => Some KEthernet), [(T "ETH_DST", (2 ^ 48, None))], [(T "ETH_DST", (2 ^ 48 + 1, None))].
  eexists. split; [|split; [vm_compute; reflexivity|vm_compute; reflexivity]]. intros X. discriminate X.
Qed.

Definition ex_fmt (n : text) : option kind :=
  if text_eqb n (T "IPV4_DST") then Some KIpv4 else if text_eqb n (T "ETH_SRC") then Some KEthernet
  else if text_eqb n (T "IN_PORT") then Some KDecimal else None.
Definition ex_m : entries :=
  [(T "IN_PORT", (3, None)); (T "IPV4_DST", (167772160, Some 4278190080)); (T "ETH_SRC", (255, None)); (T "X", (16, None))].

Example C99_ex : readable ex_fmt ex_m /\
  match_str ex_fmt ex_m = Ok (T "{IN_PORT: 3, IPV4_DST: 10.0.0.0/255.0.0.0, ETH_SRC: 00:00:00:00:00:ff, X: 0x10}").
Proof.
  split; [|vm_compute; reflexivity].
  intros n v mask H. repeat (destruct H as [H|H]; [injection H as <- <- <-|]); [..|destruct H];
    (split; [repeat split; intros X; cbn in X; repeat (destruct X as [X|X]; [discriminate X|]); destruct X|]);
    vm_compute; intuition discriminate.
Qed.

Print Assumptions C99_one_line.
Print Assumptions C99_unambiguous.
Print Assumptions C99_report.
Print Assumptions C99_range_refuted.
