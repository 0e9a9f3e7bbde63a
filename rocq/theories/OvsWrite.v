(** What is written is a text of SpecOvs.v, and is read back. *)
From Coq Require Import Lia ZifyBool ZifyNat Permutation.
From Verif Require Import SpecOvs SpecRyu FormatProofs MatchProofs ActionProofs ActionSetProofs InstProofs RyuProofs OvsRegex OvsValues OvsActions OvsPieces OvsFlows.
Import Text.
Local Open Scope string_scope.
Local Open Scope list_scope.
Local Open Scope Z_scope.

(** ** Characters of written text: lower case, no blank, no =, no bracket *)
Definition tame (c : ascii) : bool := negb (re_space c) && negb (one_of "=()" c) && Ascii.eqb (lower c) c.
Definition neat (c : ascii) : bool := negb (re_space c) && negb (Ascii.eqb c "=") && Ascii.eqb (lower c) c.
Lemma tame_neat s : all tame s -> all neat s. Proof. apply sub_class. vm_compute. reflexivity. Qed.
Lemma neat_lower s : all neat s -> map lower s = s.
Proof.
  induction 1 as [|c s E A IH]; [reflexivity|]. cbn [map]. rewrite IH. unfold neat in E. apply andb_true_iff in E as [_ E]. apply Ascii.eqb_eq in E. congruence.
Qed.
Lemma lower_tame s : all vchar s -> lower_case s -> all tame s.
Proof.
  assert (S : forallb (fun c => negb (vchar c) || existsb (Ascii.eqb c) ["A"; "B"; "C"; "D"; "E"; "F"]%char || tame c) all_ascii = true) by (vm_compute; reflexivity).
  rewrite forallb_forall in S. unfold all, lower_case. rewrite !Forall_forall. intros A L c C. specialize (S c (in_all_ascii c)). rewrite (A c C) in S. cbn [negb orb] in S.
  apply orb_true_iff in S as [S|S]; [|exact S]. exfalso. apply (L c C). apply existsb_exists in S as (x & Hx & E). apply Ascii.eqb_eq in E. now subst x.
Qed.
Lemma dec_text n : 0 <= n -> number_text (format_num 10 0 n) n /\ all tame (format_num 10 0 n).
Proof.
  intros N. rewrite format_dec by exact N. assert (H := show_numeral 10 n ltac:(lia) N). split.
  - apply nt_dec; [exact H|apply show_no_leading_zero; lia].
  - apply lower_tame; [now apply (numeral_vchars 10 _ n)|apply show_lower; lia].
Qed.
Lemma hex_text n : 0 <= n -> number_text (T "0x" ++ format_num 16 0 n) n /\ all tame (T "0x" ++ format_num 16 0 n).
Proof.
  intros N. unfold format_num. rewrite (proj2 (Z.ltb_ge n 0)) by lia. change (zfill 0 (show 16 n)) with (show 16 n). assert (H := show_numeral 16 n ltac:(lia) N). split.
  - now apply nt_hex.
  - apply all_app. split; [repeat constructor|]. apply lower_tame; [now apply (numeral_vchars 16 _ n)|apply show_lower; lia].
Qed.
Lemma separated_tame sep l : tame sep = true -> Forall (all tame) l -> all tame (separated sep l).
Proof.
  intros S. induction 1 as [|w l W _ IH]; [constructor|]. cbn [separated]. apply all_app. split; [exact W|]. destruct l; [constructor|]. constructor; auto.
Qed.
Lemma F2_F {X Y} (R : X -> Y -> Prop) (P : X -> Prop) l m : Forall2 R l m -> (forall x y, R x y -> P x) -> Forall P l.
Proof. intros F H. induction F; constructor; eauto. Qed.
(** the text of a value in the format of the field *)
Definition text_as (k : fmt) (t : text) (v : Z) : Prop :=
  match k with Decimal | Hex => number_text t v | Ethernet => mac_text t v | Ipv4 => quad_text t v | Ipv6 => False end.
Definition fmt_fun (k : fmt) : Z -> option Z -> result text :=
  match k with Decimal => format_decimal | Hex => format_hex | Ethernet => format_ethernet | Ipv4 => format_ipv4 | Ipv6 => format_ipv6 end.
Definition fmt_fits (k : fmt) (v : Z) : Prop :=
  match k with Decimal | Hex => 0 <= v | Ethernet => 0 <= v < 2 ^ 48 | Ipv4 => 0 <= v < 2 ^ 32 | Ipv6 => False end.
Lemma fmt_text k v : fmt_fits k v -> exists t, fmt_fun k v None = Ok t /\ text_as k t v /\ all tame t.
Proof.
  destruct k; cbn [fmt_fits fmt_fun text_as]; intros H.
  - exists (format_num 10 0 v). split; [reflexivity|]. now apply dec_text.
  - exists (T "0x" ++ format_num 16 0 v). split; [reflexivity|]. now apply hex_text.
  - destruct (ethernet_text v H) as (l & bs & E & L & F & P & W & _). exists (separated ":" l). split; [exact E|]. split.
    + rewrite <- W. apply mt; [exact L|exact F|]. eapply Forall_impl; [|exact P]. cbn beta. tauto.
    + apply separated_tame; [reflexivity|]. clear - F P. induction F as [|w b l bs W F IH]; [constructor|]. inversion P as [|? ? [_ P1] P2]; subst. constructor; [|now apply IH].
      apply lower_tame; [now apply (numeral_vchars 16 w b)|exact P1].
  - destruct (ipv4_text_ok v H) as (a & b & c & d & wa & wb & wc & wd & W & F & E & _). exists (separated "." [wa; wb; wc; wd]). split; [exact E|]. split.
    + rewrite W. apply qt; [reflexivity|]. clear - F. induction F as [|w n l ns (H & _ & R) _ IH]; constructor; auto. split; [exact H|lia].
    + apply separated_tame; [reflexivity|]. eapply F2_F; [exact F|]. intros w n (H1 & _ & _). clear - H1.
      apply lower_tame; [now apply (numeral_vchars 10 w n)|]. unfold lower_case.
      eapply Forall_impl; [|exact (numeral_chars _ _ _ H1)]. intros x (e & J & L).
      assert (S : forallb (fun cd => negb (snd cd <? 10) || negb (existsb (Ascii.eqb (fst cd)) ["A"; "B"; "C"; "D"; "E"; "F"]%char)) digit_table = true) by (vm_compute; reflexivity).
      rewrite forallb_forall in S. specialize (S _ J). cbn [fst snd] in S. rewrite (proj2 (Z.ltb_lt _ _) L) in S. cbn [negb orb] in S. apply negb_true_iff in S.
      intros X. assert (Y : existsb (Ascii.eqb x) ["A"; "B"; "C"; "D"; "E"; "F"]%char = true) by (apply existsb_exists; exists x; split; [exact X|apply Ascii.eqb_refl]). congruence.
  - contradiction.
Qed.
Lemma fmt_mask k v m t t' : fmt_fun k v None = Ok t -> fmt_fun k m None = Ok t' -> fmt_fun k v (Some m) = Ok (t ++ T "/" ++ t').
Proof. destruct k; cbn [fmt_fun]; unfold format_decimal, format_hex, format_ethernet, format_ipv4, format_ipv6, with_mask; intros E E'; first [injection E as <-; injection E' as <-; reflexivity|rewrite E; cbn [rbind]; rewrite E'; reflexivity]. Qed.
Lemma text_value k t v : text_as k t v -> value_text t v.
Proof. unfold value_text. destruct k; cbn [text_as]; tauto. Qed.
Lemma text_alike k t v t' m : text_as k t v -> text_as k t' m -> alike t v t' m.
Proof. unfold alike. destruct k; cbn [text_as]; tauto. Qed.
Definition fmt_width (k : fmt) (w : Z) : bool := match k with Decimal | Hex => true | Ethernet => w =? 48 | Ipv4 => w =? 32 | Ipv6 => false end.
Lemma written_sweep : forallb (fun e => match sassoc (fst e) formats, sassoc (fst e) FIELD_TO_OVS with
  | Some k, Some name => fmt_width k (snd e) && existsb (fun p => String.eqb (fst p) name && String.eqb (snd p) (fst e)) field_names && forallb tame (T name)
  | _, _ => false end && (negb (String.eqb (fst e) "VLAN_VID") || (snd e =? 13)) && (0 <=? snd e) && existsb (fun p => String.eqb (fst p) (fst e)) wire_fields) written_fields = true.
Proof. vm_compute. reflexivity. Qed.
Lemma written_facts f w : In (f, w) written_fields -> exists k name, sassoc f formats = Some k /\ sassoc f FIELD_TO_OVS = Some name /\ fmt_width k w = true /\
  In (name, f) field_names /\ all tame (T name) /\ (f = "VLAN_VID" -> w = 13) /\ 0 <= w /\ In f (map fst wire_fields).
Proof.
  intros H. assert (S := written_sweep). rewrite forallb_forall in S. specialize (S _ H). cbn [fst snd] in S.
  destruct (sassoc f formats) as [k|]; [|discriminate]. destruct (sassoc f FIELD_TO_OVS) as [name|]; [|discriminate]. exists k, name.
  rewrite !andb_true_iff in S. destruct S as [[[[[S1 S2] S3] S4] S5] S6]. split; [reflexivity|]. split; [reflexivity|]. split; [exact S1|]. split.
  { apply existsb_exists in S2 as ([n' f'] & Hin & E). cbn [fst snd] in E. apply andb_true_iff in E as [E1 E2]. apply String.eqb_eq in E1 as ->. apply String.eqb_eq in E2 as ->. exact Hin. }
  split; [apply Forall_forall; now apply forallb_forall|]. split.
  { intros ->. cbn [String.eqb Ascii.eqb Bool.eqb negb orb] in S4. now apply Z.eqb_eq. }
  split; [now apply Z.leb_le|]. apply existsb_exists in S6 as (p & Hin & E). apply String.eqb_eq in E. subst f. now apply in_map.
Qed.
Lemma written_unique f w w' : In (f, w) written_fields -> In (f, w') written_fields -> w = w'.
Proof.
  assert (ND : NoDup (map fst written_fields)) by (apply (NoDup_count_occ' string_dec); intros x Hx; cbn [map fst written_fields] in Hx; repeat (destruct Hx as [<-|Hx]; [vm_compute; reflexivity|]); destruct Hx).
  intros H H'. clear - ND H H'. induction written_fields as [|[g u] l IH]; [destruct H|]. inversion ND as [|? ? N ND']; subst.
  destruct H as [H|H], H' as [H'|H']; [congruence| | |auto].
  - injection H as -> _. destruct N. now apply (in_map fst) in H'.
  - injection H' as -> _. destruct N. now apply (in_map fst) in H.
Qed.
Lemma fits_fmt k w v : fmt_width k w = true -> 0 <= v < 2 ^ w -> fmt_fits k v.
Proof. destruct k; cbn [fmt_width fmt_fits]; intros H V; try lia; try discriminate; apply Z.eqb_eq in H; subst w; exact V. Qed.
Lemma fits_kept f v : fits_field f v -> kept f v = v.
Proof.
  intros (w & H & V). destruct (String.eqb f "VLAN_VID") eqn:E; unfold kept; rewrite E; [|reflexivity]. apply String.eqb_eq in E.
  destruct (written_facts f w H) as (k & name & _ & _ & _ & _ & _ & W & _). rewrite (W E) in V. now rewrite Z.mod_small by exact V.
Qed.

(** ** Matches *)
Definition item_of (kv : string * (Z * option Z * Z)) : item := let '(f, (v, mk, _)) := kv in IFields [(f, (v, mk))].
Lemma field_written kv : writable_field kv -> exists t, field_to_ovs kv = Ok t /\ item_text t (item_of kv).
Proof.
  destruct kv as [f [[v mk] id]]. intros [V M]. cbn [field_to_ovs item_of]. assert (KV := fits_kept f v V). destruct V as (w & H & V).
  destruct (written_facts f w H) as (k & name & E1 & E2 & E3 & E4 & _). rewrite E2. unfold formatter. rewrite E1.
  destruct (fmt_text k v (fits_fmt k w v E3 V)) as (t & T1 & T2 & _). fold (fmt_fun k) in *.
  assert (K : forall x, match k with Decimal => format_decimal v x | Hex => format_hex v x | Ethernet => format_ethernet v x | Ipv4 => format_ipv4 v x | Ipv6 => format_ipv6 v x end = fmt_fun k v x) by (intros x; now destruct k).
  rewrite K. destruct mk as [m|].
  - assert (KM := fits_kept f m M). destruct M as (w' & H' & M). assert (w' = w) by now apply (written_unique f). subst w'.
    destruct (fmt_text k m (fits_fmt k w m E3 M)) as (t' & T1' & T2' & _). rewrite (fmt_mask k v m t t' T1 T1'). cbn [rbind]. eexists. split; [reflexivity|].
    assert (I := it_masked name f t v t' m E4 (text_alike k t v t' m T2 T2')). now rewrite KV, KM in I.
  - rewrite T1. cbn [rbind]. eexists. split; [reflexivity|]. assert (I := it_field name f t v E4 (text_value k t v T2)). now rewrite KV in I.
Qed.
Lemma fields_written l : Forall writable_field l -> exists ts, rall (map field_to_ovs l) = Ok ts /\ Forall2 item_text ts (map item_of l).
Proof.
  induction 1 as [|kv l H _ (ts & E & F)]; [exists []; split; [reflexivity|constructor]|]. destruct (field_written kv H) as (t & E1 & E2).
  exists (t :: ts). cbn [map rall]. rewrite E1. cbn [rbind]. rewrite E. split; [reflexivity|now constructor].
Qed.
Lemma join_cons (sep : text) x y l : join sep (x :: y :: l) = x ++ sep ++ join sep (y :: l). Proof. reflexivity. Qed.
Lemma items_joined ts is : Forall2 item_text ts is -> items_text (join (T ",") ts ++ T " ") is.
Proof.
  assert (B : separator " "%char) by (right; now left). assert (C : separator ","%char) by now left.
  induction 1 as [|t i ts is H F IH]; [apply its_nil; repeat constructor; exact B|]. destruct ts as [|t' ts].
  - inversion F; subst. cbn [join]. change (t ++ T " ") with ([] ++ t ++ " "%char :: []). apply its_more; [constructor|exact H|exact B|apply its_nil; constructor].
  - rewrite join_cons, <- !app_assoc. change (t ++ T "," ++ join (T ",") (t' :: ts) ++ T " ") with ([] ++ t ++ ","%char :: (join (T ",") (t' :: ts) ++ T " ")).
    apply its_more; [constructor|exact H|exact C|exact IH].
Qed.

(** ** Actions *)
Lemma vlan_back k : 0 <= k < 4096 -> (Z.lor k 0x1000) mod 4096 = k /\ 0 <= Z.lor k 0x1000.
Proof.
  intros K. assert (E := vlan_lor k K). change 0x1fff with (Z.ones 13) in E. rewrite Z.land_ones, Z.mod_small in E by lia. rewrite E.
  split; [|lia]. replace (k + 4096) with (k + 1 * 4096) by lia. rewrite Z.mod_add by lia. apply Z.mod_small. exact K.
Qed.
Lemma lit_tame s : forallb tame (T s) = true -> all tame (T s).
Proof. intros H. apply Forall_forall. now apply forallb_forall. Qed.
Lemma action_written g a : writable_action a -> exists t, action_to_ovs a = Ok t /\ action_text g t [a] /\ all tame t.
Proof.
  destruct a as [n v]. intros [[H ->]|[[H (k & -> & K)]|[-> (f & k & -> & (w & Hf & V) & HV)]]].
  - repeat (destruct H as [<-|H]; [eexists; split; [reflexivity|]; split; [apply at_word; vm_compute; tauto|now apply lit_tame]|]). destruct H.
  - destruct (dec_text k K) as [D1 D2]. destruct (hex_text k K) as [X1 X2].
    destruct H as [<-|H].
    { eexists. split; [reflexivity|]. split; [apply at_output; now apply pt_number|]. apply all_app. split; [now apply lit_tame|exact D2]. }
    repeat (destruct H as [<-|H]; [eexists; split; [reflexivity|]; split; [|apply all_app; split; [now apply lit_tame|first [exact X2|exact D2]]]|]); [..|destruct H].
    + exact (at_number g "set_mpls_ttl" "SET_MPLS_TTL" _ k ltac:(vm_compute; tauto) D1).
    + exact (at_number g "push_vlan" "PUSH_VLAN" _ k ltac:(vm_compute; tauto) X1).
    + exact (at_number g "push_mpls" "PUSH_MPLS" _ k ltac:(vm_compute; tauto) X1).
    + exact (at_number g "pop_mpls" "POP_MPLS" _ k ltac:(vm_compute; tauto) X1).
    + exact (at_number g "set_queue" "SET_QUEUE" _ k ltac:(vm_compute; tauto) D1).
    + exact (at_number g "set_nw_ttl" "SET_NW_TTL" _ k ltac:(vm_compute; tauto) D1).
  - destruct (written_facts f w Hf) as (fm & name & E1 & E2 & E3 & E4 & E5 & E6 & _). cbn [action_to_ovs String.eqb Ascii.eqb Bool.eqb]. rewrite E2. unfold formatter. rewrite E1.
    set (v := if String.eqb f "VLAN_VID" then Z.lor k 0x1000 else k).
    assert (Fv : fmt_fits fm v /\ k = (if String.eqb f "VLAN_VID" then v mod 4096 else v)).
    { subst v. destruct (String.eqb f "VLAN_VID") eqn:EV; [|split; [now apply (fits_fmt fm w)|reflexivity]]. apply String.eqb_eq in EV. specialize (HV EV). rewrite EV in E1. injection E1 as <-.
      destruct (vlan_back k ltac:(lia)) as [B1 B2]. split; [exact B2|now rewrite B1]. }
    destruct Fv as [Fv Ek]. destruct (fmt_text fm v Fv) as (t & T1 & T2 & T3).
    assert (K' : forall x, match fm with Decimal => format_decimal v x | Hex => format_hex v x | Ethernet => format_ethernet v x | Ipv4 => format_ipv4 v x | Ipv6 => format_ipv6 v x end = fmt_fun fm v x) by (intros x; now destruct fm).
    rewrite K', T1. cbn [rbind]. eexists. split; [reflexivity|]. split.
    + rewrite Ek. apply at_field; [exact E4|now apply (text_value fm)].
    + apply all_app. split; [now apply lit_tame|]. apply all_app. split; [exact T3|]. apply all_app. split; [now apply lit_tame|exact E5].
Qed.
Lemma actions_written g l : Forall writable_action l -> exists ts, rall (map action_to_ovs l) = Ok ts /\ Forall2 (fun t a => action_text g t [a] /\ all tame t) ts l.
Proof.
  induction 1 as [|a l H _ (ts & E & F)]; [exists []; split; [reflexivity|constructor]|]. destruct (action_written g a H) as (t & E1 & E2).
  exists (t :: ts). cbn [map rall]. rewrite E1. cbn [rbind]. rewrite E. split; [reflexivity|now constructor].
Qed.
Lemma join_tame ts : Forall (all tame) ts -> all tame (join (T ",") ts).
Proof.
  induction 1 as [|t ts H F IH]; [constructor|]. destruct ts as [|t' ts]; [exact H|]. rewrite join_cons. apply all_app. split; [exact H|]. apply all_app. split; [repeat constructor|exact IH].
Qed.
Lemma join_listed {X} (P : text -> X -> Prop) ts xs : Forall2 P ts xs -> ts <> [] -> listed P (join (T ",") ts) xs.
Proof.
  assert (G : gap []) by constructor. induction 1 as [|t x ts xs H F IH]; intros N; [congruence|]. destruct ts as [|t' ts].
  - inversion F; subst. cbn [join]. assert (L := li_last P [] t [] x G G H). cbn [app] in L. now rewrite app_nil_r in L.
  - rewrite join_cons. exact (li_more P [] t [] x _ _ G G H (IH ltac:(discriminate))).
Qed.
Lemma join_join ts l : ts <> [] -> join (T ",") (join (T ",") ts :: l) = join (T ",") (ts ++ l).
Proof.
  intros N. destruct l as [|y l]; [now rewrite app_nil_r|]. induction ts as [|t ts IH]; [congruence|]. destruct ts as [|t' ts]; [reflexivity|].
  rewrite (join_cons _ (join _ (t :: t' :: ts))), (join_cons _ t t' ts). cbn [app]. rewrite (join_cons _ t t' (ts ++ y :: l)). cbn [app] in IH.
  rewrite <- IH by discriminate. rewrite (join_cons _ (join _ (t' :: ts))). now rewrite <- !app_assoc.
Qed.

(** ** Instructions *)
Definition pieces_of (i : instructions) : list piece :=
  map (fun a => PAct [a]) (al_iter (apply_actions i)) ++ (if clear_actions i then [PClear] else []) ++
  (if al_is_empty (write_actions i) then [] else [PWrite (al_iter (write_actions i))]) ++
  (match write_metadata i with None => [] | Some (v, m) => [PMetadata v m] end) ++
  (match goto_table i with None => [] | Some t => [PGoto t] end).
(** everything written but brackets and = *)
Lemma pieces_written g i : Forall writable_action (al_iter (apply_actions i)) -> Forall writable_action (al_iter (write_actions i)) ->
  (al_is_empty (apply_actions i) = true -> al_iter (apply_actions i) = []) -> (al_is_empty (apply_actions i) = false -> al_iter (apply_actions i) <> []) ->
  (al_is_empty (write_actions i) = false -> al_iter (write_actions i) <> []) ->
  natural (goto_table i) -> match write_metadata i with None => True | Some (v, m) => 0 <= v /\ natural m end ->
  exists t, instructions_to_ovs i = Ok t /\ pieces_text g t (pieces_of i) /\ all neat t.
Proof.
  intros Wa Ww Ea Na Nw Go Me. unfold instructions_to_ovs, actions_to_ovs.
  destruct (actions_written g _ Wa) as (ta & A1 & A2). destruct (actions_written g _ Ww) as (tw & B1 & B2). rewrite A1, B1. cbn [rbind].
  assert (La : al_is_empty (apply_actions i) = false -> ta <> []).
  { intros E Q. apply (Na E). subst ta. inversion A2. reflexivity. }
  assert (Lw : al_is_empty (write_actions i) = false -> tw <> []).
  { intros E Q. apply (Nw E). subst tw. inversion B2. reflexivity. }
  set (c := if clear_actions i then [T "clear_actions"] else []).
  set (w := if al_is_empty (write_actions i) then [] else [T "write_actions(" ++ join (T ",") tw ++ T ")"]).
  set (m := match write_metadata i with
           | None => []
           | Some (v, None) => [T "write_metadata:" ++ format_num 10 0 v]
           | Some (v, Some k) => [T "write_metadata:" ++ format_num 10 0 v ++ T "/" ++ format_num 10 0 k]
           end).
  set (go := match goto_table i with None => [] | Some t => [T "goto_table:" ++ format_num 10 0 t] end).
  assert (Ra : exists t, (do a <- (if al_is_empty (apply_actions i) then Ok [] else Ok [join (T ",") ta]);
      do w' <- (if al_is_empty (write_actions i) then Ok [] else Ok [T "write_actions(" ++ join (T ",") tw ++ T ")"]); Ok (join (T ",") (a ++ c ++ w' ++ m ++ go))) = Ok t /\
      t = join (T ",") (ta ++ c ++ w ++ m ++ go)).
  { unfold w. destruct (al_is_empty (apply_actions i)) eqn:E.
    - assert (ta = []) as ->. { rewrite (Ea eq_refl) in A2. inversion A2. reflexivity. }
      destruct (al_is_empty (write_actions i)); eexists; cbn [rbind]; (split; [reflexivity|]); reflexivity.
    - destruct (al_is_empty (write_actions i)); eexists; cbn [rbind]; (split; [reflexivity|]); cbn [app]; rewrite join_join by (now apply La); reflexivity. }
  destruct Ra as (t & Rt & Et). exists t. split; [exact Rt|]. subst t.
  assert (F : Forall2 (fun t p => piece_text g t p /\ all neat t) (ta ++ c ++ w ++ m ++ go) (pieces_of i)).
  { unfold pieces_of. apply Forall2_app; [|apply Forall2_app; [|apply Forall2_app; [|apply Forall2_app]]].
    - clear - A2. induction A2 as [|t a ta l [H1 H2] _ IH]; constructor; auto. split; [now apply pt_act|now apply tame_neat].
    - unfold c. destruct (clear_actions i); [|constructor]. repeat constructor.
    - unfold w. destruct (al_is_empty (write_actions i)) eqn:E; [constructor|]. constructor; [|constructor].
      assert (J : all tame (join (T ",") tw)) by (apply join_tame; eapply F2_F; [exact B2|]; cbn beta; tauto).
      split.
      + apply pt_write; [|now apply (all_not tame)|now apply (all_not tame)]. exists (map (fun a => [a]) (al_iter (write_actions i))). split.
        * apply join_listed; [|now apply Lw]. clear - B2. induction B2 as [|t a ta l [H1 H2] _ IH]; constructor; auto.
        * clear. induction (al_iter (write_actions i)) as [|x l IH]; [reflexivity|]. cbn [map List.concat app]. now rewrite <- IH.
      + apply all_app. split; [repeat constructor|]. apply all_app. split; [now apply tame_neat|repeat constructor].
    - unfold m. destruct (write_metadata i) as [[v [k|]]|]; [| |constructor]; (constructor; [|constructor]); destruct Me as [Mv Mk]; destruct (dec_text v Mv) as [V1 V2].
      + destruct (dec_text k Mk) as [K1 K2]. split; [now apply pt_metadata_mask|]. apply all_app. split; [repeat constructor|]. apply all_app. split; [now apply tame_neat|].
        apply all_app. split; [repeat constructor|now apply tame_neat].
      + split; [now apply pt_metadata|]. apply all_app. split; [repeat constructor|now apply tame_neat].
    - unfold go. destruct (goto_table i) as [n|]; [|constructor]. constructor; [|constructor]. destruct (dec_text n Go) as [V1 V2].
      split; [now apply pt_goto|]. apply all_app. split; [repeat constructor|now apply tame_neat]. }
  split.
  - unfold pieces_text. destruct (ta ++ c ++ w ++ m ++ go) as [|t ts] eqn:E.
    + left. inversion F. split; reflexivity.
    + right. apply join_listed; [|discriminate]. clear - F. induction F as [|x y l m [H _] _ IH]; constructor; auto.
  - assert (Fn : Forall (all neat) (ta ++ c ++ w ++ m ++ go)) by (eapply F2_F; [exact F|]; cbn beta; tauto). clear - Fn.
    induction Fn as [|t ts H Fn IH]; [constructor|]. destruct ts as [|t' ts]; [exact H|]. rewrite join_cons. apply all_app. split; [exact H|]. apply all_app. split; [repeat constructor|exact IH].
Qed.
Lemma pieces_of_facts i : applied (pieces_of i) = al_iter (apply_actions i) /\ cleared (pieces_of i) = clear_actions i /\
  written (pieces_of i) = (if al_is_empty (write_actions i) then None else Some (al_iter (write_actions i))) /\
  metadata_of (pieces_of i) = write_metadata i /\ goto_of (pieces_of i) = goto_table i /\
  (forall l, In (PWrite l) (pieces_of i) -> l = al_iter (write_actions i)).
Proof.
  assert (LA : forall {Y} (f : piece -> option Y) l o rest, (forall a, f (PAct a) = None) -> last_of f (map (fun a => PAct [a]) l ++ rest) o = last_of f rest o).
  { intros Y f l o rest H. unfold last_of. rewrite fold_left_app. f_equal. revert o. induction l as [|x l IH]; intros o; [reflexivity|]. cbn [map fold_left]. rewrite H. apply IH. }
  unfold pieces_of. split; [|split; [|split; [|split; [|split]]]].
  - unfold applied. rewrite flat_map_app.
    assert (E : forall l, flat_map (fun p => match p with PAct a => a | _ => [] end) (map (fun a : action => PAct [a]) l) = l) by (induction l as [|x l IH]; [reflexivity|cbn [map flat_map app]; now rewrite IH]).
    rewrite E. destruct (clear_actions i), (al_is_empty (write_actions i)), (write_metadata i) as [[v m]|], (goto_table i); cbn; now rewrite app_nil_r.
  - unfold cleared. rewrite existsb_app.
    assert (E : forall l, existsb (fun p => match p with PClear => true | _ => false end) (map (fun a : action => PAct [a]) l) = false) by (induction l as [|x l IH]; [reflexivity|exact IH]).
    rewrite E. now destruct (clear_actions i), (al_is_empty (write_actions i)), (write_metadata i) as [[v m]|], (goto_table i).
  - unfold written. rewrite LA by reflexivity. now destruct (clear_actions i), (al_is_empty (write_actions i)), (write_metadata i) as [[v m]|], (goto_table i).
  - unfold metadata_of. rewrite LA by reflexivity. now destruct (clear_actions i), (al_is_empty (write_actions i)), (write_metadata i) as [[v m]|], (goto_table i).
  - unfold goto_of. rewrite LA by reflexivity. now destruct (clear_actions i), (al_is_empty (write_actions i)), (write_metadata i) as [[v m]|], (goto_table i).
  - intros l H. apply in_app_or in H as [H|H]; [apply in_map_iff in H as (a & E & _); discriminate E|].
    destruct (clear_actions i), (al_is_empty (write_actions i)), (write_metadata i) as [[v m]|], (goto_table i); cbn [app In] in H;
      repeat (destruct H as [H|H]; [first [discriminate H|injection H as <-; reflexivity]|]); destruct H.
Qed.

(** ** Rules *)
Lemma writable_ordinary a : writable_action a -> ordinary a.
Proof.
  destruct a as [n v]. intros [[H ->]|[[H (k & -> & _)]|[-> (f & k & -> & (w & Hf & _) & _)]]].
  - left. split; [|reflexivity]. repeat (destruct H as [<-|H]; [vm_compute; tauto|]). destruct H.
  - right. left. split; [|now exists k]. repeat (destruct H as [<-|H]; [vm_compute; tauto|]). destruct H.
  - right. right. split; [reflexivity|]. exists f, k. split; [reflexivity|]. now destruct (written_facts f w Hf) as (? & ? & _ & _ & _ & _ & _ & _ & _ & W).
Qed.
Lemma items_no_newline s l : items_text s l -> ~ In newline s.
Proof.
  assert (Sp : forall a, Forall separator a -> ~ In newline a).
  { intros a A H. rewrite Forall_forall in A. specialize (A _ H). destruct A as [A|[A|[A|[]]]]; discriminate A. }
  assert (Wd : forall w i, item_text w i -> ~ In newline w).
  { intros w i H. destruct (shape_words "actions" w (item_shaped "actions" w i unlike_actions H)) as [U _]. now apply (all_not unsep). }
  induction 1 as [s A|a w i A Iw|a w c i s l A Iw C _ IH]; [now apply Sp| |]; intros H.
  - apply in_app_or in H as [H|H]; [now apply (Sp a)|now apply (Wd w i)].
  - apply in_app_or in H as [H|H]; [now apply (Sp a)|]. apply in_app_or in H as [H|[H|H]]; [now apply (Wd w i)|subst c; destruct C as [C|[C|[C|[]]]]; discriminate C|auto].
Qed.
Lemma strip_keep x u v y : re_space x = false -> re_space y = false -> x :: u = v ++ [y] -> str_strip (x :: u) = x :: u.
Proof.
  intros X Y E. unfold str_strip. cbn [drop_re_space]. rewrite X, E, rev_app_distr. cbn [rev app drop_re_space]. rewrite Y. cbn [rev]. now rewrite rev_involutive.
Qed.
Lemma fields_view l : fields_of (map item_of l) = items_view l.
Proof. induction l as [|[f [[v mk] id]] l IH]; [reflexivity|]. cbn [map fields_of flat_map item_of app]. fold (fields_of (map item_of l)). rewrite IH. reflexivity. Qed.
Lemma fields_others l : priority_of (map item_of l) = None /\ table_of (map item_of l) = None /\ cookie_of (map item_of l) = None.
Proof.
  unfold priority_of, table_of, cookie_of, last_of. induction l as [|[f [[v mk] id]] l IH]; [auto|exact IH].
Qed.
Lemma rule_round g ru : NoDup (map fst g) -> writable ru -> exists line ru',
  rule_to_ovs ru = Ok line /\ rule_from_ovs registry_init g line = Ok (registry_init, ru') /\ core_eqb ru ru' = true /\
  ~ In newline line /\ str_strip line = line /\ is_group_line line = false /\ is_rule_line line = true /\ made ru'.
Proof.
  intros ND (items & xs & ws & Hm & Hf & Ha & Hw & Wa & Ww & (ck & Hc & Ck) & Pr & Ta & Go & Me & Mt).
  destruct ru as [p ck' m [goto a w wm clear mt] t]. cbn [rmatch inst priority cookie table apply_actions write_actions goto_table write_metadata meter] in *. subst ck' mt.
  destruct (built_match items registry_init m Hm) as (_ & Mok & Nm).
  assert (Va : Forall writable_action (al_iter a)) by exact (Permutation_Forall (al_ok_iter_perm _ _ (al_of_ok _ _ Ha)) Wa).
  assert (Vw : Forall writable_action (al_iter w)).
  { apply Forall_forall. intros x Hx. rewrite Forall_forall in Ww. apply Ww.
    destruct (as_of_inv _ _ Hw) as (Hok & _ & _ & Hwin & _). apply winner_in. apply Hwin. exact (Permutation_in _ (Permutation_sym (al_ok_iter_perm _ _ Hok)) Hx). }
  destruct (apply_trip _ _ Ha) as (a' & Ea' & Qa). destruct (write_trip _ _ Hw) as (w' & Ew' & Qw). { eapply Forall_impl; [|exact Vw]. apply writable_ordinary. }
  assert (Oa : List.length (al_iter a) = List.length (orig_order a)).
  { assert (P := al_ok_iter_perm _ _ (al_of_ok _ _ Ha)). apply Permutation_length in P. destruct (al_of_ok _ _ Ha) as [O _]. now rewrite O, <- P. }
  assert (Na : al_is_empty a = true -> al_iter a = []). { unfold al_is_empty. destruct (orig_order a); [|discriminate]. intros _. destruct (al_iter a); [reflexivity|discriminate Oa]. }
  assert (Na' : al_is_empty a = false -> al_iter a <> []). { unfold al_is_empty. destruct (orig_order a); [discriminate|]. intros _ E. rewrite E in Oa. discriminate Oa. }
  assert (Ow : List.length (al_iter w) = List.length (orig_order w)).
  { destruct (as_of_inv _ _ Hw) as (Hok & _). assert (P := al_ok_iter_perm _ _ Hok). apply Permutation_length in P. destruct Hok as [O _]. rewrite <- P. reflexivity. }
  assert (Nw' : al_is_empty w = false -> al_iter w <> []). { unfold al_is_empty. destruct (orig_order w); [discriminate|]. intros _ E. rewrite E in Ow. discriminate Ow. }
  assert (Nw : al_is_empty w = true -> w' = al_empty).
  { unfold al_is_empty. destruct (orig_order w); [|discriminate]. intros _. destruct (al_iter w); [|discriminate Ow]. injection Ew' as <-. reflexivity. }
  set (i := mkInst goto a w wm clear None).
  destruct (pieces_written g i Va Vw Na Na' Nw' Go Me) as (ti & I1 & I2 & I3).
  destruct (pieces_of_facts i) as (F1 & F2 & F3 & F4 & F5 & F6). cbn [i apply_actions write_actions goto_table write_metadata clear_actions] in F1, F2, F3, F4, F5, F6.
  destruct (fields_written _ Hf) as (tf & T1 & T2).
  destruct (hex_text ck Ck) as [C1 C2]. destruct (dec_text t Ta) as [B1 B2]. destruct (dec_text p Pr) as [P1 P2].
  set (its := ICookie ck :: ITable t :: IPriority p :: map item_of (m_items m)).
  set (b0 := T "cookie=" ++ (T "0x" ++ format_num 16 0 ck) ++ T ", table=" ++ format_num 10 0 t ++ T ", priority=" ++ format_num 10 0 p ++ T "," ++ join (T ",") tf).
  assert (It : items_text (b0 ++ T " ") its).
  { assert (Sc : separator ","%char) by now left. assert (Sb : separator " "%char) by (right; now left).
    replace (b0 ++ T " ") with ([] ++ (T "cookie=" ++ (T "0x" ++ format_num 16 0 ck)) ++ ","%char :: ([" "%char] ++ (T "table=" ++ format_num 10 0 t) ++ ","%char ::
      ([" "%char] ++ (T "priority=" ++ format_num 10 0 p) ++ ","%char :: (join (T ",") tf ++ T " ")))).
    2:{ unfold b0. change (T ", table=") with (T "," ++ T " " ++ T "table="). change (T ", priority=") with (T "," ++ T " " ++ T "priority="). rewrite <- !app_assoc. reflexivity. }
    apply its_more; [constructor|now apply it_cookie|exact Sc|]. apply its_more; [repeat constructor; exact Sb|now apply it_table|exact Sc|].
    apply its_more; [repeat constructor; exact Sb|now apply it_priority|exact Sc|]. now apply items_joined. }
  assert (Ni : ~ In "="%char ti) by now apply (all_not neat).
  assert (Fl : flow_text g (b0 ++ T " actions=" ++ ti) its (pieces_of i)).
  { exists (b0 ++ T " "), ti. split; [rewrite <- app_assoc; reflexivity|]. split; [exact It|]. rewrite neat_lower by exact I3. exact I2. }
  assert (R := rule_read registry_init g _ its (pieces_of i) a' w' ND Fl).
  rewrite F1 in R. specialize (R Ea'). assert (Ex : forall l, In (PWrite l) (pieces_of i) -> exists x, as_of l = Ok x) by (intros l Hl; rewrite (F6 l Hl); eauto).
  specialize (R Ex). rewrite F3 in R. assert (Wr : match (if al_is_empty w then None else Some (al_iter w)) with Some l => as_of l = Ok w' | None => w' = al_empty end).
  { destruct (al_is_empty w); [now apply Nw|exact Ew']. }
  specialize (R Wr). destruct (fields_others (m_items m)) as (G1 & G2 & G3).
  assert (K1 : priority_of its = Some p). { unfold priority_of, its. rewrite !last_cons. fold (priority_of (map item_of (m_items m))). now rewrite G1. }
  assert (K2 : table_of its = Some t). { unfold table_of, its. rewrite !last_cons. fold (table_of (map item_of (m_items m))). now rewrite G2. }
  assert (K3 : cookie_of its = Some ck). { unfold cookie_of, its. rewrite !last_cons. fold (cookie_of (map item_of (m_items m))). now rewrite G3. }
  rewrite K1, K2, K3 in R. change (fields_of its) with (fields_of (map item_of (m_items m))) in R. rewrite fields_view in R.
  destruct (append_all_items (m_items m) registry_init match_new Nm (proj1 Mok)) as (m' & A1 & A2). { intros k _ []. }
  rewrite A1 in R. cbn [or_else] in R.
  exists (b0 ++ T " actions=" ++ ti). eexists. split.
  { unfold rule_to_ovs, match_to_ovs. cbn [rmatch inst cookie table priority]. rewrite T1. cbn [rbind]. fold i. rewrite I1. cbn [rbind]. f_equal. unfold b0.
    change (T "cookie=0x") with (T "cookie=" ++ T "0x"). rewrite <- !app_assoc. reflexivity. }
  split; [exact R|]. split.
  { unfold core_eqb, inst_of. cbn [priority cookie rmatch inst table]. rewrite !Z.eqb_refl. cbn [opt_eqb andb]. rewrite Z.eqb_refl.
    assert (K := match_append_all_ok (items_view (m_items m)) registry_init match_new reg_init_ok (match_new_ok _)). rewrite A1 in K. destruct K as (_ & K & _).
    rewrite (match_eqb_perm registry_init registry_init m m' Mok K). 2:{ rewrite A2. reflexivity. }
    unfold inst_eqb. cbn [goto_table apply_actions write_actions write_metadata clear_actions meter]. rewrite F2, F4, F5. cbn [i goto_table apply_actions write_actions write_metadata clear_actions meter]. rewrite Qa, Qw, Bool.eqb_reflx.
    destruct goto as [go|]; cbn [opt_eqb]; rewrite ?Z.eqb_refl; (destruct wm as [[v [k|]]|]; unfold meta_eqb; cbn [opt_eqb fst snd]; rewrite ?Z.eqb_refl; reflexivity). }
  assert (Li : all (fun c => negb (re_space c)) ti) by (eapply sub_class; [|exact I3]; vm_compute; reflexivity).
  split.
  { intros H. apply in_app_or in H as [H|H]; [apply (items_no_newline _ _ It); apply in_or_app; now left|]. apply in_app_or in H as [H|H].
    - vm_compute in H. repeat (destruct H as [H|H]; [discriminate H|]). exact H.
    - revert H. now apply (all_not neat). }
  split.
  { assert (Z : exists v y, b0 ++ T " actions=" ++ ti = v ++ [y] /\ re_space y = false).
    { destruct ti as [|z ti'] using rev_ind; [exists (b0 ++ T " actions"), "="%char; split; [rewrite <- !app_assoc; reflexivity|reflexivity]|].
      exists (b0 ++ T " actions=" ++ ti'), z. split; [now rewrite <- !app_assoc|]. apply all_app in Li as [_ Li]. apply Forall_inv in Li. now apply negb_true_iff. }
    destruct Z as (v & y & E & Y). exact (strip_keep "c"%char _ v y eq_refl Y E). }
  assert (Gr : is_group_line (b0 ++ T " actions=" ++ ti) = false).
  { unfold is_group_line. apply in_contains. change (T "group_id=") with (eq_sign "group_id"). intros O.
    change (b0 ++ T " actions=" ++ ti) with (b0 ++ " "%char :: (T "actions=" ++ ti)) in O. apply occurs_around in O; [|apply sep_not_in; [exact unlike_group|right; now left]].
    destruct O as [(u & v & E)|O].
    - apply (items_silent "group_id" _ its unlike_group It). exists u, (v ++ T " "). rewrite E. now rewrite <- !app_assoc.
    - revert O. apply shape_silent. exists "actions". split; [reflexivity|]. right. exists ti. split; [reflexivity|exact Ni]. }
  split; [exact Gr|]. split.
  { unfold is_rule_line. rewrite Gr. cbn [negb andb]. apply contains_spec. exists (b0 ++ T " "), ti. rewrite <- app_assoc. reflexivity. }
  exists (items_view (m_items m)), (al_iter a), (if al_is_empty w then [] else al_iter w). cbn [rmatch inst inst_of apply_actions write_actions]. split; [exact A1|]. split; [exact Ea'|].
  destruct (al_is_empty w) eqn:Ee; [|exact Ew']. rewrite (Nw eq_refl). reflexivity.
Qed.

(** ** Files *)
Lemma split_lines ls : Forall (fun l => ~ In newline l) ls -> split newline (List.concat (map (fun s => s ++ [newline]) ls)) = ls ++ [[]].
Proof.
  induction 1 as [|l ls H _ IH]; [reflexivity|]. cbn [map List.concat app]. rewrite <- app_assoc. cbn [app]. rewrite split_app by exact H. now rewrite IH.
Qed.
Lemma ruleset_round l : Forall writable l -> exists t l', ruleset_to_ovs l = Ok t /\ ruleset_from_ovs registry_init t = Ok (registry_init, l') /\
  Forall2 (fun a b => core_eqb a b = true /\ made b) l l'.
Proof.
  intros H.
  assert (G : exists ls l', rall (map rule_to_ovs l) = Ok ls /\ rules_from registry_init [] ls = Ok (registry_init, l') /\ Forall2 (fun a b => core_eqb a b = true /\ made b) l l' /\
              Forall (fun s => ~ In newline s /\ str_strip s = s /\ is_group_line s = false /\ is_rule_line s = true) ls).
  { induction H as [|ru l Hr _ (ls & l' & E1 & E2 & E3 & E4)]; [exists [], []; repeat (split; [constructor|]); constructor|].
    destruct (rule_round [] ru (NoDup_nil _) Hr) as (line & ru' & R1 & R2 & R3 & R4). exists (line :: ls), (ru' :: l'). cbn [map rall rules_from]. rewrite R1. cbn [rbind]. rewrite E1.
    destruct R4 as (R4 & R5 & R6 & R7 & R8). split; [reflexivity|]. rewrite R2. cbn [rbind]. rewrite E2. split; [reflexivity|]. split; constructor; auto. }
  destruct G as (ls & l' & E1 & E2 & E3 & E4). unfold ruleset_to_ovs. rewrite E1. cbn [rbind]. eexists _, l'. split; [reflexivity|]. split; [|exact E3].
  unfold ruleset_from_ovs. rewrite split_lines by (eapply Forall_impl; [|exact E4]; cbn beta; tauto).
  assert (M : map str_strip (ls ++ [[]]) = ls ++ [[]]).
  { rewrite map_app. f_equal. clear - E4. induction E4 as [|s ls (_ & E & _) _ IH]; [reflexivity|]. cbn [map]. now rewrite E, IH. }
  rewrite M, !filter_app.
  assert (F1 : filter is_group_line ls = []) by (clear - E4; induction E4 as [|s ls (_ & _ & E & _) _ IH]; [reflexivity|cbn [filter]; now rewrite E]).
  assert (F2 : filter is_rule_line ls = ls) by (clear - E4; induction E4 as [|s ls (_ & _ & _ & E) _ IH]; [reflexivity|cbn [filter]; now rewrite E, IH]).
  rewrite F1, F2. change (filter is_group_line [[]]) with (@nil text). change (filter is_rule_line [[]]) with (@nil text). cbn [app groups_from rbind]. rewrite app_nil_r. exact E2.
Qed.
