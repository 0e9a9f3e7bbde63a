(** The flows of SpecOvs.v are read as intended. *)
From Coq Require Import Lia ZifyBool ZifyNat.
From Verif Require Import SpecOvs FormatProofs RyuProofs OvsRegex OvsValues OvsActions OvsPieces.
Import Text.
Local Open Scope string_scope.
Local Open Scope list_scope.
Local Open Scope Z_scope.

(** ** Words between separators *)
Definition emit (w : text) : list text := match w with [] => [] | _ => [w] end.
Fixpoint words_from (f : ascii -> bool) (cur s : text) : list text :=
  match s with
  | [] => emit cur
  | x :: t => if f x then emit cur ++ words_from f [] t else words_from f (cur ++ [x]) t
  end.
Fixpoint dropw (f : ascii -> bool) (s : text) : text := match s with [] => [] | x :: t => if f x then dropw f t else s end.
Lemma dropw_le f s : (List.length (dropw f s) <= List.length s)%nat.
Proof. induction s as [|x s IH]; cbn [dropw]; [lia|]. destruct (f x); cbn [List.length]; lia. Qed.
Lemma plus_match f s : re_match (Plus f) s = match s with x :: t => if f x then Some (dropw f t, []) else None | [] => None end.
Proof.
  unfold re_match, Plus. destruct s as [|x s]; [reflexivity|]. cbn [run]. destruct (f x); [|reflexivity].
  induction s as [|y s IH]; [reflexivity|]. cbn [dropw]. destruct (f y); [|reflexivity]. rewrite IH. reflexivity.
Qed.
Lemma words_drop f s : words_from f [] (dropw f s) = words_from f [] s.
Proof. induction s as [|x s IH]; [reflexivity|]. cbn [dropw words_from]. destruct (f x) eqn:E; [exact IH|]. cbn [words_from]. now rewrite E. Qed.
Definition nonempty (i : text) : bool := match i with [] => false | _ => true end.
Lemma split_words f : forall fuel cur s, (List.length s < fuel)%nat -> filter nonempty (re_split_from fuel (Plus f) cur s) = words_from f cur s.
Proof.
  assert (E : forall cur l, filter nonempty (cur :: l) = emit cur ++ filter nonempty l) by (intros [|x cur] l; reflexivity).
  induction fuel as [|fuel IH]; intros cur s L; [lia|]. cbn [re_split_from]. rewrite plus_match. destruct s as [|x s].
  - rewrite E. apply app_nil_r.
  - cbn [List.length] in L. cbn [words_from]. destruct (f x).
    + rewrite E. f_equal. rewrite IH by (pose proof (dropw_le f s); lia). apply words_drop.
    + apply IH. lia.
Qed.
Lemma words_spaces f sp : all f sp -> forall cur, words_from f cur sp = emit cur.
Proof. induction 1 as [|x sp E S IH]; intros cur; cbn [words_from]; [reflexivity|]. rewrite E, (IH []). apply app_nil_r. Qed.
Lemma words_back f s sp : all f sp -> forall cur, words_from f cur (s ++ sp) = words_from f cur s.
Proof.
  intros S. induction s as [|x s IH]; intros cur; cbn [app words_from]; [now apply words_spaces|]. now rewrite !IH.
Qed.
Lemma words_front f s sp : all f sp -> words_from f [] (sp ++ s) = words_from f [] s.
Proof. induction 1 as [|x sp E S IH]; [reflexivity|]. cbn [app words_from]. rewrite E. exact IH. Qed.
Lemma drop_shape s : exists a, s = a ++ drop_re_space s /\ all re_space a.
Proof.
  induction s as [|x s (a & E & A)]; [exists []; split; [reflexivity|constructor]|]. cbn [drop_re_space]. destruct (re_space x) eqn:X.
  - exists (x :: a). split; [cbn [app]; congruence|now constructor].
  - exists []. split; [reflexivity|constructor].
Qed.
Lemma all_rev f s : all f s -> all f (rev s).
Proof. intros H. apply Forall_forall. intros x X. apply in_rev in X. revert x X. now apply Forall_forall. Qed.
Lemma strip_shape s : exists a b, s = a ++ str_strip s ++ b /\ all re_space a /\ all re_space b.
Proof.
  destruct (drop_shape s) as (a & E & A). destruct (drop_shape (rev (drop_re_space s))) as (b & F & B). exists a, (rev b). split; [|split; [exact A|now apply all_rev]].
  unfold str_strip. rewrite <- rev_app_distr, <- F, rev_involutive. exact E.
Qed.
Lemma space_sep s : all re_space s -> all sep_char s.
Proof. apply sub_class. vm_compute. reflexivity. Qed.
Lemma items_words s : items_of s = words_from sep_char [] s.
Proof.
  destruct (strip_shape s) as (a & b & E & A & B). unfold items_of, re_split. fold nonempty. rewrite split_words by lia.
  rewrite E at 2. rewrite words_front, words_back by now apply space_sep. reflexivity.
Qed.
Definition unsep (c : ascii) : bool := negb (sep_char c).
Lemma words_word w : all unsep w -> forall cur v, words_from sep_char cur (w ++ v) = words_from sep_char (cur ++ w) v.
Proof.
  induction 1 as [|x w E A IH]; intros cur v; cbn [app]; [now rewrite app_nil_r|]. cbn [words_from]. apply negb_true_iff in E. rewrite E, IH.
  now rewrite <- app_assoc.
Qed.
Lemma separator_sep s : Forall separator s -> all sep_char s.
Proof. intros H. eapply Forall_impl; [|exact H]. intros c [<-|[<-|[<-|[]]]]; reflexivity. Qed.
Lemma words_items s l : (forall w i, item_text w i -> all unsep w /\ w <> []) -> items_text s l ->
  Forall2 item_text (words_from sep_char [] s) l.
Proof.
  intros HW. induction 1 as [s A|a w i A Iw|a w c i s l A Iw C _ IH].
  - rewrite words_spaces by now apply separator_sep. constructor.
  - rewrite words_front by now apply separator_sep. destruct (HW w i Iw) as [U N]. rewrite <- (app_nil_r w), words_word by exact U.
    cbn [words_from app]. destruct w; [congruence|]. repeat constructor. exact Iw.
  - rewrite words_front by now apply separator_sep. destruct (HW w i Iw) as [U N]. rewrite words_word by exact U. cbn [words_from app].
    assert (C' : all sep_char [c]) by (apply separator_sep; constructor; [exact C|constructor]). inversion C' as [|? ? E _]; subst. rewrite E. destruct w; [congruence|].
    constructor; [exact Iw|exact IH].
Qed.

(** ** One item *)
(** characters of the values: neither separators nor = nor / *)
Definition calm (c : ascii) : bool := unsep c && negb (Ascii.eqb c "=") && negb (Ascii.eqb c "/").
Lemma vchar_calm s : all vchar s -> all calm s. Proof. apply sub_class. vm_compute. reflexivity. Qed.
Lemma calm_unsep s : all calm s -> all unsep s. Proof. apply sub_class. vm_compute. reflexivity. Qed.
Lemma all_not f s x : all f s -> f x = false -> ~ In x s.
Proof. unfold all. rewrite Forall_forall. intros A E H. specialize (A x H). congruence. Qed.
Lemma kv_plain k : all calm k -> key_value k = Ok (S_ k, None, None).
Proof. intros K. unfold key_value. rewrite split_word; [reflexivity|]. now apply (all_not calm). Qed.
Lemma kv_value k v : all calm k -> all calm v -> key_value (k ++ T "=" ++ v) = Ok (S_ k, Some v, None).
Proof.
  intros K V. unfold key_value. change (T "=" ++ v) with ("="%char :: v). rewrite split_app by now apply (all_not calm).
  rewrite split_word by now apply (all_not calm). rewrite split_word by now apply (all_not calm). reflexivity.
Qed.
Lemma kv_mask k v m : all calm k -> all calm v -> all calm m -> key_value (k ++ T "=" ++ v ++ T "/" ++ m) = Ok (S_ k, Some v, Some m).
Proof.
  intros K V M. unfold key_value. change (T "=" ++ v ++ T "/" ++ m) with ("="%char :: v ++ "/"%char :: m). rewrite split_app by now apply (all_not calm).
  rewrite split_word. 2:{ intros H. apply in_app_or in H as [H|[H|H]]; [|discriminate H|]; revert H; now apply (all_not calm). }
  rewrite split_app by now apply (all_not calm). rewrite split_word by now apply (all_not calm). reflexivity.
Qed.
Definition skips (w : string) : bool :=
  negb (str_in w ["table_id"; "table"]) && negb (String.eqb w "priority") && negb (str_in w ignored_keys) &&
  negb (str_in w ["out_group"; "out_port"; "check_overlap"]) && negb (String.eqb w "cookie") && forallb calm (T w).
Lemma flow_add r w v mk c : skips w = true -> parse_flow_argument r w v mk c =
  (do o <- add_match r w v mk (rmatch c);
   Ok (match o with Some (r', m) => (r', set_core c (priority c) (cookie c) m (table c)) | None => (r, c) end)).
Proof.
  unfold skips. rewrite !andb_true_iff, !negb_true_iff. intros [[[[[E1 E2] E3] E4] E5] E6]. unfold parse_flow_argument. now rewrite E1, E2, E3, E4, E5.
Qed.
Lemma skips_calm w : skips w = true -> all calm (T w).
Proof. unfold skips. rewrite !andb_true_iff. intros [_ H]. apply Forall_forall. now apply forallb_forall. Qed.
Lemma fields_sweep : forallb (fun e => skips (fst e) && negb (String.eqb (fst e) "dl_vlan") && negb (String.eqb (fst e) "vlan_tci") &&
  match sassoc (fst e) SHORTHANDS with None => true | Some _ => false end) field_names = true.
Proof. vm_compute. reflexivity. Qed.
Lemma field_facts w f : In (w, f) field_names -> skips w = true /\ String.eqb w "dl_vlan" = false /\ String.eqb w "vlan_tci" = false /\ sassoc w SHORTHANDS = None.
Proof.
  intros H. assert (S := fields_sweep). rewrite forallb_forall in S. specialize (S _ H). cbn [fst] in S.
  rewrite !andb_true_iff, !negb_true_iff in S. destruct S as [[[S1 S2] S3] S4]. destruct (sassoc w SHORTHANDS); [discriminate|]. auto.
Qed.
Definition as_pyval (o : option Z) : pyval := match o with None => PNone | Some n => PInt n end.
Lemma kept_land f n : kept f n = if String.eqb f "VLAN_VID" then Z.land n 0x1fff else n.
Proof. unfold kept. destruct (String.eqb f "VLAN_VID"); [|reflexivity]. change 0x1fff with (Z.ones 13). now rewrite Z.land_ones by lia. Qed.
Lemma add_field r w f value mask v mk m : In (w, f) field_names -> number_pair w value mask = Ok (PInt v, as_pyval mk) ->
  add_match r w value mask m = Ok (Some (match_append r m f (kept f v) (option_map (kept f) mk))).
Proof.
  intros H N. unfold add_match. rewrite N. cbn [rbind]. destruct (field_facts w f H) as (_ & E1 & E2 & E3). rewrite E1, E2, E3.
  destruct (names_facts w f H) as (F1 & F2 & _). rewrite F1, F2. destruct (String.eqb f "VLAN_VID") eqn:V.
  - apply String.eqb_eq in V. subst f. destruct mk as [k|]; cbn [as_pyval option_map]; rewrite !kept_land; reflexivity.
  - destruct mk as [k|]; cbn [as_pyval option_map]; rewrite !kept_land, V; reflexivity.
Qed.
Lemma np_value w s v : value_text s v -> number_pair w (Some s) None = Ok (PInt v, PNone).
Proof. intros H. assert (N := value_nonempty s v H). unfold number_pair. destruct s; [congruence|]. now rewrite (read_value _ v H). Qed.
(** dots and colons *)
Lemma count_occ_char x s : count_char x s = count_occ ascii_dec s x.
Proof.
  unfold count_char. induction s as [|y s IH]; [reflexivity|]. cbn [filter count_occ]. destruct (ascii_dec y x) as [->|N].
  - rewrite Ascii.eqb_refl. cbn [List.length]. now rewrite IH.
  - rewrite (proj2 (Ascii.eqb_neq x y)) by congruence. exact IH.
Qed.
Lemma no_char x s : ~ In x s -> count_char x s = 0%nat /\ has_char x s = false.
Proof.
  intros H. split; [rewrite count_occ_char; now apply count_occ_not_In|]. unfold has_char. destruct (existsb (Ascii.eqb x) s) eqn:E; [|reflexivity].
  apply existsb_exists in E as (y & Hy & E). apply Ascii.eqb_eq in E. subst y. contradiction.
Qed.
Lemma a_char x s : In x s -> has_char x s = true.
Proof. intros H. unfold has_char. apply existsb_exists. exists x. split; [exact H|apply Ascii.eqb_refl]. Qed.
Lemma number_plain_char s n : number_text s n -> ~ In dot s /\ ~ In colon s.
Proof. intros H. assert (A := number_dchars s n H). split; now apply (all_not dchar). Qed.
Lemma mac_char s n : mac_text s n -> ~ In dot s /\ In colon s.
Proof. intros [l bs L F P]. split; [eapply not_in_separated; [discriminate|apply dot_not_digit|exact F]|apply in_separated; lia]. Qed.
Lemma quad_numeral l ns : Forall2 (fun w n => numeral 10 w n /\ n < 256) l ns -> Forall2 (numeral 10) l ns.
Proof. apply F2_numeral. intros w n [H _]. exact H. Qed.
Lemma group_numeral l ns : Forall2 group16 l ns -> Forall2 (numeral 16) l ns.
Proof. apply F2_numeral. intros w n [H _]. exact H. Qed.
Lemma quad_char s n : quad_text s n -> count_char dot s = 3%nat /\ In dot s /\ ~ In colon s.
Proof.
  intros [l ns L F]. apply quad_numeral in F. split; [|split; [apply in_separated; lia|eapply not_in_separated; [discriminate|apply colon_not_digit|exact F]]].
  rewrite count_occ_char. assert (C := split_count dot (separated "." l)). change (separated "." l) with (separated dot l) in *.
  rewrite (split_numerals dot 10 l ns) in C; [lia|apply dot_not_digit|destruct l; discriminate|exact F].
Qed.
Lemma ip6_char s n : ip6_text s n -> ~ In dot s /\ In colon s.
Proof.
  intros [l ns L F|l r ns ms Fl Fr L].
  - apply group_numeral in F. split; [eapply not_in_separated; [discriminate|apply dot_not_digit|exact F]|apply in_separated; lia].
  - apply group_numeral in Fl, Fr. split; [|apply in_colons]. intros H. apply in_app_or in H as [H|H].
    + revert H. eapply not_in_separated; [discriminate|apply dot_not_digit|exact Fl].
    + apply in_app_or in H as [H|H]; [destruct H as [H|[H|[]]]; discriminate H|]. revert H. eapply not_in_separated; [discriminate|apply dot_not_digit|exact Fr].
Qed.
Lemma np_two w s v s' m : value_text s v -> value_text s' m -> (Nat.eqb (count_char dot s) 3 && negb (has_char dot s') = false) ->
  (Nat.ltb 2 (count_char colon s) && has_char "6"%char (T w) && negb (has_char colon s') = false) -> number_pair w (Some s) (Some s') = Ok (PInt v, PInt m).
Proof.
  intros H H' E F. assert (N := value_nonempty s v H). assert (N' := value_nonempty s' m H'). unfold number_pair. destruct s as [|x s]; [congruence|]. destruct s' as [|x' s']; [congruence|].
  rewrite E. cbn [rbind]. rewrite F. cbn [rbind]. now rewrite (read_value _ v H), (read_value _ m H').
Qed.
Lemma np_alike w s v s' m : alike s v s' m -> number_pair w (Some s) (Some s') = Ok (PInt v, PInt m).
Proof.
  intros [[H H']|[[H H']|[[H H']|[H H']]]].
  - destruct (number_plain_char s v H) as [D C]. apply np_two; [now left|now left| |]; rewrite (proj1 (no_char _ _ D)) || rewrite (proj1 (no_char _ _ C)); reflexivity.
  - destruct (mac_char s v H) as [D C]. destruct (mac_char s' m H') as [D' C']. apply np_two; [right; now left|right; now left| |].
    + now rewrite (proj1 (no_char _ _ D)).
    + rewrite (a_char _ _ C'). apply andb_false_r.
  - destruct (quad_char s v H) as (_ & _ & C). destruct (quad_char s' m H') as (_ & D & _). apply np_two; [right; right; now left|right; right; now left| |].
    + rewrite (a_char _ _ D). apply andb_false_r.
    + now rewrite (proj1 (no_char _ _ C)).
  - destruct (ip6_char s v H) as [D C]. destruct (ip6_char s' m H') as [D' C']. apply np_two; [right; right; now right|right; right; now right| |].
    + now rewrite (proj1 (no_char _ _ D)).
    + rewrite (a_char _ _ C'). apply andb_false_r.
Qed.
Lemma number_nonneg s n : number_text s n -> 0 <= n.
Proof. intros [s' n' H _|s' n' H]; apply numeral_nonneg in H; lia. Qed.
Lemma prefix_value w k : 0 <= k <= w -> prefix_mask w k = 2 ^ w - 2 ^ (w - k).
Proof.
  intros K. unfold prefix_mask. rewrite Z.shiftl_mul_pow2 by lia. replace (2 ^ w) with (2 ^ k * 2 ^ (w - k)); [lia|]. rewrite <- Z.pow_add_r by lia. f_equal. lia.
Qed.
Lemma np_prefix4 w s v s' k : quad_text s v -> number_text s' k -> k <= 32 -> number_pair w (Some s) (Some s') = Ok (PInt v, PInt (2 ^ 32 - 2 ^ (32 - k))).
Proof.
  intros H H' K. assert (V : value_text s v) by (right; right; now left). assert (N := value_nonempty s v V). assert (N' := number_nonempty s' k H').
  assert (K0 := number_nonneg s' k H'). destruct (quad_char s v H) as (D & _ & _). destruct (number_plain_char s' k H') as [D' _].
  rewrite <- (prefix_value 32 k) by lia. unfold number_pair. destruct s as [|x s]; [congruence|]. destruct s' as [|x' s']; [congruence|].
  rewrite D, (proj2 (no_char _ _ D')). cbn [Nat.eqb negb andb]. rewrite (read_number _ k H'). cbn [rbind]. rewrite (proj2 (Z.leb_le k 32)) by lia.
  rewrite (read_value _ v V). cbn [rbind]. rewrite (proj2 (Z.ltb_ge k 0)) by lia. reflexivity.
Qed.
Lemma np_prefix6 w s v s' k : has_char "6"%char (T w) = true -> ip6_text s v -> (3 <= count_occ ascii_dec s ":"%char)%nat -> number_text s' k -> k <= 128 ->
  number_pair w (Some s) (Some s') = Ok (PInt v, PInt (2 ^ 128 - 2 ^ (128 - k))).
Proof.
  intros W H C H' K. assert (V : value_text s v) by (right; right; now right). assert (N := value_nonempty s v V). assert (N' := number_nonempty s' k H').
  assert (K0 := number_nonneg s' k H'). destruct (ip6_char s v H) as [D _]. destruct (number_plain_char s' k H') as [_ D'].
  rewrite <- (prefix_value 128 k) by lia. unfold number_pair. destruct s as [|x s]; [congruence|]. destruct s' as [|x' s']; [congruence|].
  rewrite (proj1 (no_char _ _ D)). cbn [Nat.eqb andb rbind]. change ":"%char with colon in C. rewrite <- count_occ_char in C.
  rewrite (proj2 (Nat.ltb_lt 2 _)) by lia. rewrite W, (proj2 (no_char _ _ D')). cbn [negb andb]. rewrite (read_number _ k H'). cbn [rbind]. rewrite (proj2 (Z.leb_le k 128)) by lia.
  rewrite (read_value _ v V). cbn [rbind]. rewrite (proj2 (Z.ltb_ge k 0)) by lia. reflexivity.
Qed.
(** the effect of an item *)
Definition upd_item (rc : registry * core) (i : item) : registry * core :=
  let '(r, c) := rc in
  match i with
  | ITable n => (r, set_core c (priority c) (cookie c) (rmatch c) n)
  | IPriority n => (r, set_core c n (cookie c) (rmatch c) (table c))
  | ICookie n => (r, set_core c (priority c) (Some n) (rmatch c) (table c))
  | IFields l => let '(r', m) := match_append_all r (rmatch c) l in (r', set_core c (priority c) (cookie c) m (table c))
  | INothing => (r, c)
  end.
Definition read_item (rc : registry * core) (item : text) : result (registry * core) :=
  do (key, v, mk) <- key_value item; parse_flow_argument (fst rc) key v mk (snd rc).
Lemma field_item r c w f v mk t value mask : In (w, f) field_names -> key_value t = Ok (w, value, mask) -> number_pair w value mask = Ok (PInt v, as_pyval mk) ->
  read_item (r, c) t = Ok (upd_item (r, c) (IFields [(f, (kept f v, option_map (kept f) mk))])).
Proof.
  intros H K N. unfold read_item. rewrite K. cbn [rbind fst snd]. destruct (field_facts w f H) as (S & _). rewrite (flow_add _ _ _ _ _ S), (add_field r w f value mask v mk (rmatch c) H N).
  cbn [rbind upd_item match_append_all]. destruct (match_append r (rmatch c) f (kept f v) (option_map (kept f) mk)) as [r' m]. reflexivity.
Qed.
Definition pair_dec (a b : string * Z) : {a = b} + {a <> b}. Proof. decide equality; [apply Z.eq_dec|apply string_dec]. Defined.
Lemma short_sweep : forallb (fun e => skips (fst e) && match sassoc (fst e) SHORTHANDS with
  | Some l => if list_eq_dec pair_dec l (snd e) then true else false | None => false end) short_names = true.
Proof. vm_compute. reflexivity. Qed.
Lemma fold_append l : forall r m, fold_left (fun (rm : registry * Match) (fv : string * Z) => match_append (fst rm) (snd rm) (fst fv) (snd fv) None) l (r, m) =
  match_append_all r m (map (fun fv => (fst fv, (snd fv, None))) l).
Proof.
  induction l as [|[f v] l IH]; intros r m; [reflexivity|]. cbn [fold_left map match_append_all fst snd]. destruct (match_append r m f v None) as [r' m']. apply IH.
Qed.
Lemma short_item r c w l : In (w, l) short_names -> read_item (r, c) (T w) = Ok (upd_item (r, c) (IFields (map (fun fv => (fst fv, (snd fv, None))) l))).
Proof.
  intros H. assert (S := short_sweep). rewrite forallb_forall in S. specialize (S _ H). cbn [fst snd] in S. apply andb_true_iff in S as [S1 S2].
  unfold read_item. rewrite kv_plain by now apply skips_calm. cbn [rbind fst snd]. rewrite S_T, (flow_add _ _ _ _ _ S1). unfold add_match. cbn [number_pair rbind as_given].
  destruct (sassoc w SHORTHANDS) as [l'|]; [|discriminate]. destruct (list_eq_dec _ l' l) as [->|]; [|discriminate]. cbn [rbind]. rewrite fold_append.
  cbn [upd_item]. destruct (match_append_all r (rmatch c) _) as [r' m]. reflexivity.
Qed.
Lemma vlan_lor n : 0 <= n < 4096 -> Z.lor (Z.land n 0x1fff) 0x1000 = n + 4096.
Proof.
  intros H. change 0x1fff with (Z.ones 13). rewrite Z.land_ones, Z.mod_small by lia.
  assert (D : Z.land n (Z.shiftl 1 12) = 0).
  { apply Z.bits_inj'. intros i Hi. rewrite Z.land_spec, Z.shiftl_spec, Z.bits_0 by lia. destruct (Z.testbit n i) eqn:E; [|reflexivity].
    destruct (Z.lt_ge_cases i 12) as [L|L]; [rewrite (Z.testbit_neg_r 1) by lia; reflexivity|]. exfalso.
    rewrite <- (Z.mod_small n (2 ^ 12)) in E by lia. rewrite Z.mod_pow2_bits_high in E by lia. discriminate E. }
  change 0x1000 with (Z.shiftl 1 12). change 4096 with (Z.shiftl 1 12). rewrite <- Z.lxor_lor, <- Z.add_nocarry_lxor by exact D. reflexivity.
Qed.
Lemma dl_item r c s n : number_text s n -> read_item (r, c) (T "dl_vlan=" ++ s) =
  Ok (upd_item (r, c) (IFields [("VLAN_VID", ((if n =? 0xffff then 0 else Z.lor (Z.land n 0x1fff) 0x1000), None))])).
Proof.
  intros H. change (T "dl_vlan=") with (T "dl_vlan" ++ T "="). rewrite <- app_assoc. unfold read_item.
  rewrite kv_value; [|repeat constructor|now apply vchar_calm, dchar_vchar, (number_dchars s n)]. cbn [rbind fst snd]. rewrite S_T, flow_add by reflexivity.
  unfold add_match. rewrite (np_value "dl_vlan" s n (number_value s n H)). cbn [rbind sassoc].
  change (sassoc "dl_vlan" SHORTHANDS) with (@None (list (string * Z))). cbn [String.eqb Ascii.eqb Bool.eqb rbind].
  cbn [upd_item match_append_all]. destruct (match_append r (rmatch c) "VLAN_VID" _ None) as [r' m]. reflexivity.
Qed.
Lemma plain_item r c k s n : all calm (T k) -> number_text s n -> read_item (r, c) (T k ++ T "=" ++ s) = parse_flow_argument r k (Some s) None c.
Proof.
  intros K H. unfold read_item. rewrite kv_value; [|exact K|now apply vchar_calm, dchar_vchar, (number_dchars s n)]. cbn [rbind fst snd]. now rewrite S_T.
Qed.
Lemma dump_sweep : forallb (fun w => forallb calm (T w) && str_in w ignored_keys && negb (str_in w ["table_id"; "table"]) && negb (String.eqb w "priority")) dump_names = true.
Proof. vm_compute. reflexivity. Qed.
Lemma dump_calm s : Forall (fun c => ~ In c ["="; "/"; ","; " "; "009"]%char /\ (33 <= nat_of_ascii c <= 126)%nat) s -> all calm s.
Proof.
  assert (S : forallb (fun c => existsb (Ascii.eqb c) ["="; "/"; ","; " "; "009"]%char || negb (Nat.leb 33 (nat_of_ascii c) && Nat.leb (nat_of_ascii c) 126) || calm c) all_ascii = true) by (vm_compute; reflexivity).
  rewrite forallb_forall in S. intros H. eapply Forall_impl; [|exact H]. intros c [N R]. specialize (S c (in_all_ascii c)). rewrite !orb_true_iff in S.
  destruct S as [[E|E]|E]; [|exfalso|exact E].
  - exfalso. apply N. apply existsb_exists in E as (x & Hx & E). apply Ascii.eqb_eq in E. now subst x.
  - rewrite (proj2 (Nat.leb_le _ _) (proj1 R)), (proj2 (Nat.leb_le _ _) (proj2 R)) in E. discriminate E.
Qed.
Lemma alike_values s v s' m : alike s v s' m -> value_text s v /\ value_text s' m.
Proof. unfold value_text. intros [[]|[[]|[[]|[]]]]; auto 6. Qed.
Lemma prefix6_names w f : In (w, f) [("ipv6_src", "IPV6_SRC"); ("ipv6_dst", "IPV6_DST")] -> In (w, f) field_names /\ has_char "6"%char (T w) = true /\ f <> "VLAN_VID".
Proof. intros [[= <- <-]|[[= <- <-]|[]]]; (split; [vm_compute; tauto|split; [reflexivity|discriminate]]). Qed.
Lemma kept_id f n : f <> "VLAN_VID" -> kept f n = n.
Proof. intros H. unfold kept. now rewrite (proj2 (String.eqb_neq _ _) H). Qed.
Lemma item_ok r c w i : item_text w i -> read_item (r, c) w = Ok (upd_item (r, c) i).
Proof.
  intros H. destruct H as [s n H|s n H|s n H|w s H C|w l H|w f s v H V|w f s v s' m H A|w f s v s' k H N Q K L|w f s v s' k H Q C K L|s n H L|s H].
  - change (T "table=") with (T "table" ++ T "="). rewrite <- app_assoc, (plain_item r c "table" s n ltac:(repeat constructor) H).
    unfold parse_flow_argument. cbn [plain_number]. change (str_in "table" ["table_id"; "table"]) with true. cbn iota. now rewrite (read_number s n H).
  - change (T "priority=") with (T "priority" ++ T "="). rewrite <- app_assoc, (plain_item r c "priority" s n ltac:(repeat constructor) H).
    unfold parse_flow_argument. cbn [plain_number]. change (str_in "priority" ["table_id"; "table"]) with false. cbn iota. change (String.eqb "priority" "priority") with true. cbn iota. now rewrite (read_number s n H).
  - change (T "cookie=") with (T "cookie" ++ T "="). rewrite <- app_assoc, (plain_item r c "cookie" s n ltac:(repeat constructor) H).
    unfold parse_flow_argument. cbn [plain_number]. change (str_in "cookie" ["table_id"; "table"]) with false. change (String.eqb "cookie" "priority") with false.
    change (str_in "cookie" ignored_keys) with false. change (str_in "cookie" ["out_group"; "out_port"; "check_overlap"]) with false. change (String.eqb "cookie" "cookie") with true. cbn iota.
    now rewrite (read_number s n H).
  - assert (S := dump_sweep). rewrite forallb_forall in S. specialize (S _ H). rewrite !andb_true_iff, !negb_true_iff in S. destruct S as [[[S1 S2] S3] S4].
    unfold read_item. rewrite kv_value; [|apply Forall_forall; now apply forallb_forall|now apply dump_calm]. cbn [rbind fst snd]. rewrite S_T. unfold parse_flow_argument. rewrite S3, S4, S2. reflexivity.
  - now apply short_item.
  - destruct (field_facts w f H) as (S & _). apply (field_item r c w f v None _ (Some s) None H); [|exact (np_value w s v V)].
    rewrite kv_value; [now rewrite S_T|now apply skips_calm|now apply vchar_calm, (value_vchars s v)].
  - destruct (field_facts w f H) as (S & _). destruct (alike_values s v s' m A) as [V V'].
    apply (field_item r c w f v (Some m) _ (Some s) (Some s') H); [|exact (np_alike w s v s' m A)].
    rewrite kv_mask; [now rewrite S_T|now apply skips_calm|now apply vchar_calm, (value_vchars s v)|now apply vchar_calm, (value_vchars s' m)].
  - destruct (field_facts w f H) as (S & _). assert (V : value_text s v) by (right; right; now left).
    assert (F := field_item r c w f v (Some (2 ^ 32 - 2 ^ (32 - k))) (T w ++ T "=" ++ s ++ T "/" ++ s') (Some s) (Some s') H). cbn [option_map] in F. rewrite !(kept_id f) in F by exact N.
    apply F; [|exact (np_prefix4 w s v s' k Q K L)].
    rewrite kv_mask; [now rewrite S_T|now apply skips_calm|now apply vchar_calm, (value_vchars s v)|now apply vchar_calm, dchar_vchar, (number_dchars s' k)].
  - destruct (prefix6_names w f H) as (H' & X & N). destruct (field_facts w f H') as (S & _). assert (V : value_text s v) by (right; right; now right).
    assert (F := field_item r c w f v (Some (2 ^ 128 - 2 ^ (128 - k))) (T w ++ T "=" ++ s ++ T "/" ++ s') (Some s) (Some s') H'). cbn [option_map] in F. rewrite !(kept_id f) in F by exact N.
    apply F; [|exact (np_prefix6 w s v s' k X Q C K L)].
    rewrite kv_mask; [now rewrite S_T|now apply skips_calm|now apply vchar_calm, (value_vchars s v)|now apply vchar_calm, dchar_vchar, (number_dchars s' k)].
  - rewrite (dl_item r c s n H). assert (0 <= n) by now apply (number_nonneg s n). rewrite (proj2 (Z.eqb_neq n 0xffff)) by lia. now rewrite vlan_lor by lia.
  - rewrite (dl_item r c s _ H). reflexivity.
Qed.

(** ** The words of the items *)
(** words that do not contain "p=" *)
Definition good_key (p k : string) : bool := forallb calm (T k) && negb (is_prefix (rev (T p)) (rev (T k))) && negb (text_eqb (T k) []).
Definition item_shape (p : string) (w : text) : Prop := exists k, good_key p k = true /\ (w = T k \/ exists v, w = T k ++ T "=" ++ v /\ ~ In "="%char v /\ all unsep v).
Definition all_keys : list string := ["table"; "priority"; "cookie"; "dl_vlan"] ++ map fst field_names ++ map fst short_names ++ dump_names.
Definition unlike_keys (p : string) : bool := forallb calm (T p) && forallb (good_key p) all_keys.
Lemma unlike_actions : unlike_keys "actions" = true. Proof. vm_compute. reflexivity. Qed.
Lemma unlike_group : unlike_keys "group_id" = true. Proof. vm_compute. reflexivity. Qed.
Lemma calm_value v : all calm v -> ~ In "="%char v /\ all unsep v.
Proof. intros A. split; [now apply (all_not calm)|now apply calm_unsep]. Qed.
Lemma calm_mask v m : all calm v -> all calm m -> ~ In "="%char (v ++ T "/" ++ m) /\ all unsep (v ++ T "/" ++ m).
Proof.
  intros A B. destruct (calm_value v A) as [A1 A2]. destruct (calm_value m B) as [B1 B2]. split.
  - intros H. apply in_app_or in H as [H|[H|H]]; [auto|discriminate H|auto].
  - apply all_app. split; [exact A2|]. constructor; [reflexivity|exact B2].
Qed.
Lemma item_shaped p w i : unlike_keys p = true -> item_text w i -> item_shape p w.
Proof.
  intros S. apply andb_true_iff in S as [_ S]. rewrite forallb_forall in S.
  assert (S1 : forall e, In e field_names -> good_key p (fst e) = true).
  { intros e He. apply S. unfold all_keys. apply in_or_app. right. apply in_or_app. left. now apply in_map. }
  assert (S2 : forall e, In e short_names -> good_key p (fst e) = true).
  { intros e He. apply S. unfold all_keys. apply in_or_app. right. apply in_or_app. right. apply in_or_app. left. now apply in_map. }
  assert (S3 : forall e, In e dump_names -> good_key p e = true).
  { intros e He. apply S. unfold all_keys. do 3 (apply in_or_app; right). exact He. }
  intros H. destruct H as [s n H|s n H|s n H|w s H C|w l H|w f s v H V|w f s v s' m H A|w f s v s' k H N Q K L|w f s v s' k H Q C K L|s n H L|s H].
  - exists "table". split; [apply S; vm_compute; tauto|right]. exists s. split; [reflexivity|]. now apply calm_value, vchar_calm, dchar_vchar, (number_dchars s n).
  - exists "priority". split; [apply S; vm_compute; tauto|right]. exists s. split; [reflexivity|]. now apply calm_value, vchar_calm, dchar_vchar, (number_dchars s n).
  - exists "cookie". split; [apply S; vm_compute; tauto|right]. exists s. split; [reflexivity|]. now apply calm_value, vchar_calm, dchar_vchar, (number_dchars s n).
  - exists w. split; [now apply S3|right]. exists s. split; [reflexivity|]. now apply calm_value, dump_calm.
  - exists w. split; [now apply (S2 (w, l))|now left].
  - exists w. split; [now apply (S1 (w, f))|right]. exists s. split; [reflexivity|]. now apply calm_value, vchar_calm, (value_vchars s v).
  - exists w. split; [now apply (S1 (w, f))|right]. exists (s ++ T "/" ++ s'). split; [reflexivity|]. destruct (alike_values s v s' m A) as [V V'].
    apply calm_mask; [now apply vchar_calm, (value_vchars s v)|now apply vchar_calm, (value_vchars s' m)].
  - exists w. split; [now apply (S1 (w, f))|right]. exists (s ++ T "/" ++ s'). split; [reflexivity|]. assert (V : value_text s v) by (right; right; now left).
    apply calm_mask; [now apply vchar_calm, (value_vchars s v)|now apply vchar_calm, dchar_vchar, (number_dchars s' k)].
  - destruct (prefix6_names w f H) as (H' & _). exists w. split; [now apply (S1 (w, f))|right]. exists (s ++ T "/" ++ s'). split; [reflexivity|].
    assert (V : value_text s v) by (right; right; now right).
    apply calm_mask; [now apply vchar_calm, (value_vchars s v)|now apply vchar_calm, dchar_vchar, (number_dchars s' k)].
  - exists "dl_vlan". split; [apply S; vm_compute; tauto|right]. exists s. split; [reflexivity|]. now apply calm_value, vchar_calm, dchar_vchar, (number_dchars s n).
  - exists "dl_vlan". split; [apply S; vm_compute; tauto|right]. exists s. split; [reflexivity|]. now apply calm_value, vchar_calm, dchar_vchar, (number_dchars s _ H).
Qed.
Lemma good_key_facts p k : good_key p k = true -> all calm (T k) /\ T k <> [] /\ is_prefix (rev (T p)) (rev (T k)) = false.
Proof.
  unfold good_key. rewrite !andb_true_iff, !negb_true_iff. intros [[A B] C]. split; [apply Forall_forall; now apply forallb_forall|]. split; [|exact B].
  intros E. rewrite E in C. discriminate C.
Qed.
Lemma shape_words p w : item_shape p w -> all unsep w /\ w <> [].
Proof.
  intros (k & G & S). destruct (good_key_facts p k G) as (A & N & _). destruct S as [->|(v & -> & _ & U)].
  - split; [now apply calm_unsep|exact N].
  - split; [|intros E; apply app_eq_nil in E as [_ E]; discriminate E]. apply all_app. split; [now apply calm_unsep|]. constructor; [reflexivity|exact U].
Qed.
(** an occurrence of a text *)
Definition occurs (p s : text) : Prop := exists a b, s = a ++ p ++ b.
Lemma app_cases {A} (a b c d : list A) : a ++ b = c ++ d -> (exists l, a = c ++ l /\ d = l ++ b) \/ (exists l, c = a ++ l /\ b = l ++ d).
Proof.
  revert c. induction a as [|x a IH]; intros c E.
  - right. now exists c.
  - destruct c as [|y c]; [left; exists (x :: a); auto|]. injection E as <- E. destruct (IH c E) as [(l & -> & ->)|(l & -> & ->)]; [left|right]; now exists l.
Qed.
Lemma occurs_around p u c v : ~ In c p -> occurs p (u ++ c :: v) -> occurs p u \/ occurs p v.
Proof.
  intros N (a & b & E). destruct (app_cases _ _ _ _ E) as [(l & -> & E')|(l & -> & E')].
  - destruct (app_cases _ _ _ _ E') as [(m & -> & E2)|(m & -> & E2)].
    + destruct m as [|y m]; [|injection E2 as <- E2; destruct N; apply in_or_app; right; now left].
      left. exists a, []. now rewrite !app_nil_r.
    + left. now exists a, m.
  - destruct l as [|y l].
    + cbn [app] in E'. destruct p as [|z p]; [left; exists u, []; now rewrite !app_nil_r|]. injection E' as <- _. destruct N. now left.
    + injection E' as <- E'. right. now exists l, b.
Qed.
Definition eq_sign (p : string) : text := T p ++ ["="%char].
Definition eq_shape (p : string) (w : text) : Prop := exists k, good_key p k = true /\ (w = T k \/ exists v, w = T k ++ T "=" ++ v /\ ~ In "="%char v).
Lemma item_eq_shape p w : item_shape p w -> eq_shape p w.
Proof. intros (k & G & [->|(v & -> & N & _)]); exists k; split; [exact G|now left|exact G|right; now exists v]. Qed.
Lemma shape_silent p w : eq_shape p w -> ~ occurs (eq_sign p) w.
Proof.
  intros (k & G & S) (a & b & E). destruct (good_key_facts p k G) as (A & _ & P). assert (K : ~ In "="%char (T k)) by now apply (all_not calm).
  unfold eq_sign in E. rewrite <- app_assoc in E. cbn [app] in E. rewrite app_assoc in E.
  assert (X : T k = a ++ T p).
  { destruct S as [->|(v & -> & V)]; [exfalso; apply K; rewrite E; apply in_or_app; right; now left|].
    change (T "=" ++ v) with ("="%char :: v) in E. destruct (app_cases _ _ _ _ E) as [(l & E1 & E2)|(l & E1 & E2)].
    - destruct l as [|y l]; [now rewrite app_nil_r in E1|]. injection E2 as <- _. destruct K. rewrite E1. apply in_or_app. right. now left.
    - destruct l as [|y l]; [now rewrite app_nil_r in E1|]. injection E2 as <- E2. destruct V. rewrite E2. apply in_or_app. right. now left. }
  rewrite X, rev_app_distr in P. assert (P' := proj2 (is_prefix_spec (rev (T p)) (rev (T p) ++ rev a)) (ex_intro _ (rev a) eq_refl)). congruence.
Qed.
Lemma sep_silent p s : Forall separator s -> ~ occurs (eq_sign p) s.
Proof.
  intros A (a & b & ->). unfold eq_sign in A. rewrite Forall_app in A. destruct A as [_ A]. rewrite !Forall_app in A. destruct A as [[_ A] _].
  inversion A as [|? ? H _]. destruct H as [H|[H|[H|[]]]]; discriminate H.
Qed.
Lemma sep_not_in p c : unlike_keys p = true -> separator c -> ~ In c (eq_sign p).
Proof.
  intros U C H. apply andb_true_iff in U as [U _]. rewrite forallb_forall in U. unfold eq_sign in H. apply in_app_or in H as [H|[H|[]]].
  - specialize (U _ H). destruct C as [<-|[<-|[<-|[]]]]; discriminate U.
  - subst c. destruct C as [C|[C|[C|[]]]]; discriminate C.
Qed.
Lemma occurs_nil p : ~ occurs (eq_sign p) [].
Proof. intros (x & y & E). symmetry in E. apply app_eq_nil in E as [_ E]. apply app_eq_nil in E as [E _]. unfold eq_sign in E. apply app_eq_nil in E as [_ E]. discriminate E. Qed.
Lemma occurs_seps p a s : unlike_keys p = true -> Forall separator a -> occurs (eq_sign p) (a ++ s) -> occurs (eq_sign p) s.
Proof.
  intros U. induction 1 as [|c a C A IH]; intros O; [exact O|]. apply IH.
  destruct (occurs_around (eq_sign p) [] c (a ++ s) (sep_not_in p c U C) O) as [H|H]; [now destruct (occurs_nil p)|exact H].
Qed.
Lemma items_silent p s l : unlike_keys p = true -> items_text s l -> ~ occurs (eq_sign p) s.
Proof.
  intros U. induction 1 as [s A|a w i A Iw|a w c i s l A Iw C _ IH]; [now apply sep_silent| |].
  - intros O. apply (shape_silent p w (item_eq_shape p w (item_shaped p w i U Iw))). now apply (occurs_seps p a).
  - intros O. apply (occurs_seps p a _ U A) in O. apply occurs_around in O; [|now apply sep_not_in].
    destruct O as [O|O]; [|now apply IH]. now apply (shape_silent p w (item_eq_shape p w (item_shaped p w i U Iw))).
Qed.
(** ** Equal signs in actions *)
(** every equal sign comes after one of the words of [L] *)
Definition ends (L : list string) (s : text) : Prop := forall u v, s = u ++ "="%char :: v -> exists u' e, In e L /\ u = u' ++ T e.
Lemma ends_none L s : ~ In "="%char s -> ends L s.
Proof. intros N u v E. destruct N. rewrite E. apply in_or_app. right. now left. Qed.
Lemma ends_app L s t : ends L s -> ends L t -> ends L (s ++ t).
Proof.
  intros A B u v E. destruct (app_cases _ _ _ _ E) as [(l & E1 & E2)|(l & E1 & E2)].
  - destruct l as [|y l].
    + rewrite app_nil_r in E1. subst u. cbn [app] in E2. destruct (B [] v (eq_sym E2)) as (u' & e & H & Q). exists (s ++ u'), e. split; [exact H|]. rewrite <- app_assoc, <- Q. now rewrite app_nil_r.
    + injection E2 as <- E2. exact (A u l E1).
  - destruct (B l v E2) as (u' & e & H & Q). exists (s ++ u'), e. split; [exact H|]. now rewrite E1, Q, app_assoc.
Qed.
Fixpoint endsb (L : list string) (p s : text) : bool :=
  match s with
  | [] => true
  | c :: t => (negb (Ascii.eqb c "=") || existsb (fun e => is_prefix (rev (T e)) p) L) && endsb L (c :: p) t
  end.
Lemma endsb_ok L s : forall p, endsb L p s = true -> forall u v, s = u ++ "="%char :: v -> exists e, In e L /\ is_prefix (rev (T e)) (rev u ++ p) = true.
Proof.
  induction s as [|c s IH]; intros p H u v E; [now destruct u|]. cbn [endsb] in H. apply andb_true_iff in H as [H1 H2]. destruct u as [|x u]; injection E as -> E.
  - cbn in H1. apply existsb_exists in H1 as (e & H & P). now exists e.
  - destruct (IH _ H2 u v E) as (e & H & P). exists e. split; [exact H|]. cbn [rev]. now rewrite <- app_assoc.
Qed.
Lemma ends_lit L s : endsb L [] s = true -> ends L s.
Proof.
  intros H u v E. destruct (endsb_ok L s [] H u v E) as (e & He & P). rewrite app_nil_r in P. apply is_prefix_spec in P as (t & P).
  exists (rev t), e. split; [exact He|]. apply (f_equal (@rev ascii)) in P. now rewrite rev_app_distr, !rev_involutive in P.
Qed.
Lemma prefix_cut q : forall r z, is_prefix q (r ++ z) = true -> (List.length q <= List.length r)%nat -> is_prefix q r = true.
Proof.
  intros r z H L. apply is_prefix_spec in H as (t & E). apply is_prefix_spec. destruct (app_cases _ _ _ _ E) as [(l & -> & _)|(l & -> & _)]; [now exists l|].
  rewrite app_length in L. destruct l; [|cbn in L; lia]. exists []. now rewrite !app_nil_r.
Qed.
Definition other_end (p e : string) : bool := (String.length e <=? String.length p)%nat && negb (is_prefix (rev (T e)) (rev (T p))).
Lemma T_length p : List.length (T p) = String.length p.
Proof. unfold T. induction p; cbn; auto. Qed.
Lemma ends_silent L p s : ends L s -> forallb (other_end p) L = true -> ~ occurs (eq_sign p) s.
Proof.
  intros H O (a & b & E). unfold eq_sign in E. rewrite <- app_assoc in E. cbn [app] in E. rewrite app_assoc in E. destruct (H _ _ E) as (u' & e & He & Q).
  rewrite forallb_forall in O. specialize (O e He). apply andb_true_iff in O as [O1 O2]. apply Nat.leb_le in O1. apply negb_true_iff in O2.
  apply (f_equal (@rev ascii)) in Q. rewrite !rev_app_distr in Q.
  rewrite (prefix_cut _ (rev (T p)) (rev a)) in O2; [discriminate| |rewrite !rev_length, !T_length; exact O1]. apply is_prefix_spec. exists (rev u'). exact Q.
Qed.
Definition arg_ends : list string := ["rt"; "en"].
Lemma vchar_no_eq s : all vchar s -> ~ In "="%char s. Proof. intros H. now apply (all_not vchar). Qed.
Lemma number_ends L s n : number_text s n -> ends L s. Proof. intros H. now apply ends_none, vchar_no_eq, dchar_vchar, (number_dchars s n). Qed.
Lemma value_ends L s n : value_text s n -> ends L s. Proof. intros H. now apply ends_none, vchar_no_eq, (value_vchars s n). Qed.
Lemma port_ends L s n : port_text s n -> ends L s.
Proof. intros H. apply ends_none. destruct (port_chars s n H) as [A _]. now apply (all_not _ s _ A). Qed.
Lemma words_ends_sweep : forallb (fun w => endsb [] [] (T w))
  (map fst plain_words ++ map fst number_words ++ map fst bracket_words ++ map fst set_words ++ map fst field_names ++ map fst ttl_names) = true.
Proof. vm_compute. reflexivity. Qed.
Lemma words_ends w : In w (map fst plain_words ++ map fst number_words ++ map fst bracket_words ++ map fst set_words ++ map fst field_names ++ map fst ttl_names) -> ends arg_ends (T w).
Proof.
  intros H. assert (S := words_ends_sweep). rewrite forallb_forall in S. specialize (S w H). apply ends_lit in S. intros u v E. now destruct (S u v E) as (? & ? & [] & _).
Qed.
Ltac pick_ends H := apply words_ends; rewrite !in_app_iff; match type of H with In (?w, ?f) ?l => assert (In w (map fst l)) by (apply in_map_iff; exists (w, f); auto); tauto end.
Ltac lit_ends := apply ends_lit; vm_compute; reflexivity.
Lemma action_ends g w l : action_text g w l -> ends arg_ends w.
Proof.
  intros H. destruct H as [w l H|s n H|w a s n H N|w a s n H N|s p H|s p s' n H N|s p H N|s n v N H|w f s n H N|w f s n H N|w a s n H N];
    try (pick_ends H); repeat (apply ends_app); first [pick_ends H|lit_ends|eapply number_ends; eassumption|eapply value_ends; eassumption|eapply port_ends; eassumption].
Qed.
Lemma gap_ends L s : gap s -> ends L s.
Proof. intros H. apply ends_none. apply gap_space in H. now apply (all_not re_space). Qed.
Lemma listed_ends {X} (P : text -> X -> Prop) L s l : (forall w x, P w x -> ends L w) -> listed P s l -> ends L s.
Proof.
  intros HP. induction 1 as [a w b x A B Pw|a w b x s l A B Pw _ IH]; repeat apply ends_app; eauto using gap_ends. apply ends_none. vm_compute. intuition discriminate.
Qed.
Lemma actions_ends g s l : actions_text g s l -> ends arg_ends s.
Proof. intros (ls & H & _). eapply listed_ends; [|exact H]. apply action_ends. Qed.
Lemma piece_ends g w p : piece_text g w p -> ends arg_ends w.
Proof.
  intros H. destruct H as [s l H| |s l H N1 N2|s v H|s v s' m H H'|s n H|d n H].
  - now apply (action_ends g s l).
  - lit_ends.
  - apply ends_app; [lit_ends|]. apply ends_app; [now apply (actions_ends g s l)|lit_ends].
  - apply ends_app; [lit_ends|now apply (number_ends _ s v)].
  - apply ends_app; [lit_ends|]. apply ends_app; [now apply (number_ends _ s v)|]. apply ends_app; [lit_ends|now apply (number_ends _ s' m)].
  - apply ends_app; [lit_ends|now apply (number_ends _ s n)].
  - apply ends_app; [lit_ends|]. apply ends_app; [|lit_ends]. apply ends_none, vchar_no_eq. now apply (numeral_vchars 10 [d] n).
Qed.
Lemma pieces_ends g s l : pieces_text g s l -> ends arg_ends s.
Proof. intros [[-> ->]|H]; [now apply ends_none|]. eapply listed_ends; [|exact H]. apply piece_ends. Qed.
Lemma lower_silent p s : map lower (T p) = T p -> ~ occurs (eq_sign p) (map lower s) -> ~ occurs (eq_sign p) s.
Proof. intros L N (a & b & ->). apply N. exists (map lower a), (map lower b). rewrite !map_app. unfold eq_sign. rewrite map_app, L. reflexivity. Qed.
Lemma in_contains p s : ~ occurs p s -> contains p s = false.
Proof. intros N. destruct (contains p s) eqn:E; [|reflexivity]. exfalso. apply N. now apply contains_spec. Qed.
Lemma pieces_silent g after ps p : pieces_text g (map lower after) ps -> map lower (T p) = T p -> forallb (other_end p) arg_ends = true -> ~ occurs (eq_sign p) after.
Proof. intros H L O. apply lower_silent; [exact L|]. eapply ends_silent; [|exact O]. now apply (pieces_ends g _ ps). Qed.

(** ** The line *)
Lemma split_on_word p s : contains p s = false -> forall fuel cur, (List.length s < fuel)%nat -> split_on_from fuel p cur s = [cur ++ s].
Proof.
  induction s as [|x s IH]; intros C fuel cur L; (destruct fuel as [|fuel]; [lia|]); cbn [split_on_from contains] in *; apply orb_false_iff in C as [C1 C2]; rewrite C1.
  - now rewrite app_nil_r.
  - rewrite IH; [|exact C2|cbn [List.length] in L; lia]. now rewrite <- app_assoc.
Qed.
(** "actions=" overlaps itself nowhere *)
Lemma no_overlap u t : u <> [] -> ~ occurs (T "actions=") u -> is_prefix (T "actions=") (u ++ T "actions=" ++ t) = false.
Proof.
  intros N O. destruct (is_prefix _ _) eqn:E; [|reflexivity]. exfalso. apply is_prefix_spec in E as (z & E).
  destruct (app_cases _ _ _ _ E) as [(l & -> & _)|(l & E1 & E2)]; [apply O; now exists [], l|].
  assert (L : (List.length u <= 8)%nat) by (apply (f_equal (@List.length ascii)) in E1; rewrite app_length in E1; change (List.length (T "actions=")) with 8%nat in E1; lia).
  assert (U : u = firstn (List.length u) (T "actions=")) by (rewrite E1, firstn_app, firstn_all, Nat.sub_diag; cbn [firstn]; now rewrite app_nil_r).
  assert (V : l = skipn (List.length u) (T "actions=")) by (rewrite E1, skipn_app, skipn_all, Nat.sub_diag; reflexivity).
  rewrite V in E2. clear V E1 E. destruct u as [|x u]; [congruence|]. cbn [List.length] in *.
  set (k := List.length u) in *. clearbody k.
  do 8 (destruct k as [|k]; [cbn in U, E2; try discriminate E2; apply O; rewrite U; exists [], []; reflexivity|]). lia.
Qed.
Lemma occurs_tail p u v : occurs p v -> occurs p (u ++ v).
Proof. intros (a & b & ->). exists (u ++ a), b. now rewrite <- app_assoc. Qed.
Lemma split_on_ok before after : ~ occurs (T "actions=") before -> contains (T "actions=") after = false ->
  split_on (T "actions=") (before ++ T "actions=" ++ after) = [before; after].
Proof.
  intros O C. unfold split_on.
  assert (G : forall u fuel cur, ~ occurs (T "actions=") u -> (List.length (u ++ T "actions=" ++ after) < fuel)%nat ->
              split_on_from fuel (T "actions=") cur (u ++ T "actions=" ++ after) = [cur ++ u; after]).
  { induction u as [|x u IH]; intros fuel cur Ou L; (destruct fuel as [|fuel]; [lia|]).
    - cbn [app] in L |- *. cbn [split_on_from]. rewrite (proj2 (is_prefix_spec _ _) (ex_intro _ after eq_refl)).
      rewrite skipn_app, skipn_all, Nat.sub_diag. cbn [skipn app]. rewrite split_on_word; [|exact C|rewrite app_length in L; change (List.length (T "actions=")) with 8%nat in L; lia].
      now rewrite app_nil_r.
    - cbn [split_on_from]. rewrite no_overlap; [|discriminate|exact Ou]. cbn [app]. rewrite IH.
      + now rewrite <- app_assoc.
      + intros Q. apply Ou. now apply (occurs_tail _ [x]).
      + cbn [app List.length] in L. lia. }
  apply (G before); [exact O|lia].
Qed.
Lemma items_fold ws l : Forall2 item_text ws l -> forall rc, rfold read_item ws rc = Ok (fold_left upd_item l rc).
Proof.
  induction 1 as [|w i ws l W _ IH]; intros [r c]; [reflexivity|]. cbn [rfold fold_left]. rewrite (item_ok r c w i W). cbn [rbind]. apply IH.
Qed.
Lemma append_all_app a b : forall r m, match_append_all r m (a ++ b) = let '(r', m') := match_append_all r m a in match_append_all r' m' b.
Proof. induction a as [|[n [v mk]] a IH]; intros r m; [reflexivity|]. cbn [app match_append_all]. destruct (match_append r m n v mk). apply IH. Qed.
Lemma last_or {X Y} (f : X -> option Y) l : forall o, last_of f l o = match last_of f l None with Some y => Some y | None => o end.
Proof.
  unfold last_of. induction l as [|x l IH]; intros o; cbn [fold_left]; [reflexivity|]. destruct (f x) as [y|]; [|apply IH].
  rewrite IH. symmetry. rewrite IH. now destruct (fold_left _ l None).
Qed.
Lemma last_cons {X Y} (f : X -> option Y) x l : last_of f (x :: l) None = match last_of f l None with Some y => Some y | None => f x end.
Proof. change (last_of f (x :: l) None) with (last_of f l (match f x with Some y => Some y | None => None end)). rewrite last_or. now destruct (f x). Qed.
Lemma items_result l : forall r c, fold_left upd_item l (r, c) =
  let '(r', m) := match_append_all r (rmatch c) (fields_of l) in
  (r', mkCore (or_else (priority_of l) (priority c)) (match cookie_of l with Some k => Some k | None => cookie c end) m (inst c) (or_else (table_of l) (table c))).
Proof.
  induction l as [|i l IH]; intros r c; [destruct c; reflexivity|]. cbn [fold_left].
  assert (P : priority_of (i :: l) = match priority_of l with Some y => Some y | None => match i with IPriority n => Some n | _ => None end end).
  { exact (last_cons _ i l). }
  assert (T' : table_of (i :: l) = match table_of l with Some y => Some y | None => match i with ITable n => Some n | _ => None end end).
  { exact (last_cons _ i l). }
  assert (K : cookie_of (i :: l) = match cookie_of l with Some y => Some y | None => match i with ICookie n => Some n | _ => None end end).
  { exact (last_cons _ i l). }
  rewrite P, T', K. unfold fields_of. cbn [flat_map]. fold (fields_of l). rewrite append_all_app.
  destruct i as [n|n|n|fs|]; cbn [upd_item app match_append_all].
  - rewrite IH. cbn [set_core priority cookie rmatch table inst]. destruct (match_append_all r (rmatch c) (fields_of l)). now destruct (priority_of l), (table_of l), (cookie_of l).
  - rewrite IH. cbn [set_core priority cookie rmatch table inst]. destruct (match_append_all r (rmatch c) (fields_of l)). now destruct (priority_of l), (table_of l), (cookie_of l).
  - rewrite IH. cbn [set_core priority cookie rmatch table inst]. destruct (match_append_all r (rmatch c) (fields_of l)). now destruct (priority_of l), (table_of l), (cookie_of l).
  - destruct (match_append_all r (rmatch c) fs) as [r1 m1]. rewrite IH. cbn [set_core priority cookie rmatch table inst].
    destruct (match_append_all r1 m1 (fields_of l)). now destruct (priority_of l), (table_of l), (cookie_of l).
  - rewrite IH. destruct (match_append_all r (rmatch c) (fields_of l)). now destruct (priority_of l), (table_of l), (cookie_of l).
Qed.
Lemma rule_read r g line its ps a w : NoDup (map fst g) -> flow_text g line its ps -> al_of (applied ps) = Ok a ->
  (forall l, In (PWrite l) ps -> exists x, as_of l = Ok x) -> match written ps with Some l => as_of l = Ok w | None => w = al_empty end ->
  rule_from_ovs r g line = let '(r', m) := match_append_all r match_new (fields_of its) in
    Ok (r', mkCore (or_else (priority_of its) 0x8000) (cookie_of its) m (inst_of ps a w) (or_else (table_of its) 0)).
Proof.
  intros ND (before & after & -> & It & Ps) A Hw W.
  assert (C : contains (T "actions=") after = false) by (apply in_contains; now apply (pieces_silent g after ps "actions" Ps)). unfold rule_from_ovs. rewrite split_on_ok; [|now apply (items_silent "actions" before its unlike_actions)|exact C].
  rewrite items_words. change (fun (rc : registry * core) item => do (key, v, mk) <- key_value item; parse_flow_argument (fst rc) key v mk (snd rc)) with read_item.
  assert (F := words_items before its (fun w i H => shape_words "actions" w (item_shaped "actions" w i unlike_actions H)) It). rewrite (items_fold _ _ F), items_result.
  cbn [rmatch priority cookie table inst].
  assert (R := instructions_read g after ps a w ND Ps A Hw W). destruct (match_append_all r match_new (fields_of its)) as [r' m]. cbn [rbind].
  replace (match cookie_of its with Some k => Some k | None => None end) with (cookie_of its) by (now destruct (cookie_of its)).
  destruct after as [|x after]; [|rewrite R; reflexivity].
  change (instructions_from_ovs g []) with (@Ok instructions inst_empty) in R. assert (Q : inst_empty = inst_of ps a w) by congruence. now rewrite <- Q.
Qed.
