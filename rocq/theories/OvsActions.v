(** Reading the actions of SpecOvs.v. *)
From Coq Require Import Lia ZifyBool ZifyNat.
From Verif Require Import SpecOvs FormatProofs OvsRegex OvsValues.
Import Text.
Local Open Scope string_scope.
Local Open Scope list_scope.
Local Open Scope Z_scope.

(** [w] is read as the actions [l], with white space around and a comma or the end after it *)
Definition reads (g : group_table) (w : text) (l : list action) : Prop :=
  forall sp sp' tl rest append acts, all re_space sp -> all re_space sp' -> tail_of tl rest ->
  parse_next_action g append (sp ++ w ++ sp' ++ tl) acts = (do acts' <- rfold append l acts; Ok (Some (rest, acts'))).
Definition no_inst (g : group_table) (w : text) : Prop := forall sp t i, all re_space sp -> parse_next_instruction g (sp ++ w ++ t) i = Ok None.

(** the patterns tried before the set_field and after it *)
Definition inst_res : list re := [W "clear_actions"; write_actions_re; write_metadata_re; goto_re; resubmit_re].
Lemma no_inst_p g p w t : w = p ++ t -> solid p = true -> forallb (misses p) inst_res = true -> no_inst g w.
Proof.
  intros -> S F sp u i Sp. cbn [inst_res forallb] in F. repeat rewrite andb_true_iff in F. destruct F as (F1 & F2 & F3 & F4 & F5 & _).
  unfold parse_next_instruction. rewrite <- app_assoc.
  now rewrite (token_miss _ sp p (t ++ u) Sp S F1), (token_miss _ sp p (t ++ u) Sp S F2), (token_miss _ sp p (t ++ u) Sp S F3), (token_miss _ sp p (t ++ u) Sp S F4), (token_miss _ sp p (t ++ u) Sp S F5).
Qed.
Lemma fold_one {X Y} (f : Y -> X -> result Y) x y (Q : Y -> result (option (text * Y))) : (do z <- rfold f [x] y; Q z) = (do z <- f y x; Q z).
Proof. cbn [rfold]. destruct (f y x); reflexivity. Qed.
Lemma tail_stop (f : ascii -> bool) sp tl rest : all re_space sp -> tail_of tl rest -> (forall x, re_space x = true -> f x = false) -> f ","%char = false -> stop f (sp ++ tl).
Proof. intros Sp Tl F C. destruct Sp as [|x sp E Sp]; cbn [app stop]; [destruct Tl; [exact I|exact C]|now apply F]. Qed.
Lemma arg_space x : re_space x = true -> arg_char x = false.
Proof. unfold arg_char. intros ->. now rewrite orb_true_r. Qed.
Lemma slash_space x : re_space x = true -> arg_slash x = false.
Proof. unfold arg_slash. intros ->. now rewrite orb_true_r. Qed.
Lemma vchar_arg s : all vchar s -> all arg_char s. Proof. apply sub_class. vm_compute. reflexivity. Qed.
Lemma vchar_slash s : all vchar s -> all arg_slash s. Proof. apply sub_class. vm_compute. reflexivity. Qed.
Lemma dchar_arg s : all dchar s -> all arg_char s. Proof. apply sub_class. vm_compute. reflexivity. Qed.
Lemma name_space_sweep : forallb (fun x => negb (re_space x) || negb (name_char x)) all_ascii = true. Proof. vm_compute. reflexivity. Qed.
Lemma name_space x : re_space x = true -> name_char x = false.
Proof. intros E. assert (S := name_space_sweep). rewrite forallb_forall in S. specialize (S x (in_all_ascii x)). rewrite E in S. now destruct (name_char x). Qed.

(** ** key:value and key(value) *)
Lemma cap_eats f (plus : bool) v : all f v -> v <> [] -> eats (Cap (if plus then Plus f else Star f)) v [Some v] (stop f).
Proof.
  intros A N. apply (eats_cap _ v []). destruct plus; [|now apply eats_star]. destruct v as [|x v]; [congruence|].
  inversion A; subst. now apply eats_plus.
Qed.
Lemma kv_eats key f plus after v : all f v -> v <> [] ->
  eats (kv key f plus after) (T key ++ v ++ T after) [Some v] (fun t => stop f (T after ++ t)).
Proof.
  intros A N. unfold kv, W. eapply eats_weaken; [apply (eats_seq (Word (T key)) _ (T key) _ [] [Some v]); [apply eats_word|]|].
  - apply (eats_seq _ (Word (T after)) v (T after) [Some v] []); [apply (cap_eats f plus v A N)|apply eats_word].
  - cbn beta. tauto.
Qed.
Lemma kv_reads g key plus after fn n v a : nth_error (key_value_map g) n = Some (kv key arg_char plus after, fn) ->
  all arg_char v -> v <> [] -> fn v = Ok a -> solid (T key) = true -> forallb (fun e => misses (T key) (fst e)) key_map = true ->
  forallb (fun e => misses (T key) (fst e)) (firstn n (key_value_map g)) = true -> after = "" \/ after = ")" -> reads g (T key ++ v ++ T after) [a].
Proof.
  intros Hn A N Fn S M1 M2 Af sp sp' tl rest append acts Sp Sp' Tl. unfold parse_next_action.
  assert (M : match_token (kv key arg_char plus after) (sp ++ (T key ++ v ++ T after) ++ sp' ++ tl) = Some ([Some v] ++ [Some rest])).
  { eapply token_ok; eauto; [rewrite <- app_assoc; now apply solid_stop|now apply kv_eats|]. cbn beta.
    destruct Af as [-> | ->]; [cbn [T list_ascii_of_string app]|reflexivity]. eapply tail_stop; eauto using arg_space. }
  rewrite <- (app_assoc (T key)) in *. rewrite (first_token_none key_map sp (T key) _ Sp S M1), (first_token_at _ n _ fn sp (T key) _ _ Sp S Hn M2 M).
  cbn [app group_text nth_error last_group last]. rewrite Fn, fold_one. reflexivity.
Qed.
Lemma number_words_ok g w a s n : In (w, a) number_words -> number_text s n -> reads g (T w ++ T ":" ++ s) [(a, VInt n)] /\ no_inst g (T w ++ T ":" ++ s).
Proof.
  intros H N. assert (A := dchar_arg s (number_dchars s n N)). assert (NE := number_nonempty s n N).
  assert (PI := py_int_number s n N). assert (NS := read_number s n N).
  assert (K : forall fn plus k, nth_error (key_value_map g) k = Some (kv (w ++ ":") arg_char plus "", fn) -> fn s = Ok (a, VInt n) ->
     solid (T (w ++ ":")) = true -> forallb (fun e => misses (T (w ++ ":")) (fst e)) key_map = true ->
     forallb (fun e => misses (T (w ++ ":")) (fst e)) (firstn k (key_value_map g)) = true -> forallb (misses (T (w ++ ":"))) inst_res = true -> T (w ++ ":") = T w ++ T ":" ->
     reads g (T w ++ T ":" ++ s) [(a, VInt n)] /\ no_inst g (T w ++ T ":" ++ s)).
  { intros fn plus k E1 E2 E3 E4 E5 E6 E7. rewrite app_assoc, <- E7. split.
    - assert (R := kv_reads g (w ++ ":") plus "" fn k s _ E1 A NE E2 E3 E4 E5 (or_introl eq_refl)). cbn [T list_ascii_of_string] in R. now rewrite app_nil_r in R.
    - eapply (no_inst_p g (T (w ++ ":"))); eauto. }
  unfold number_words in H. cbn [In] in H.
  destruct H as [[= <- <-]|H]; [apply (K (int_act "PUSH_VLAN") false 3%nat); [reflexivity|unfold int_act; now rewrite PI|vm_compute; reflexivity..]|].
  destruct H as [[= <- <-]|H]; [apply (K (int_act "PUSH_MPLS") false 4%nat); [reflexivity|unfold int_act; now rewrite PI|vm_compute; reflexivity..]|].
  destruct H as [[= <- <-]|H]; [apply (K (int_act "POP_MPLS") false 5%nat); [reflexivity|unfold int_act; now rewrite PI|vm_compute; reflexivity..]|].
  destruct H as [[= <- <-]|H]; [apply (K (int_act "SET_QUEUE") true 6%nat); [reflexivity|unfold int_act; now rewrite PI|vm_compute; reflexivity..]|].
  destruct H as [[= <- <-]|H]; [apply (K (num_act "SET_NW_TTL") true 13%nat); [reflexivity|unfold num_act; now rewrite NS|vm_compute; reflexivity..]|].
  destruct H as [[= <- <-]|H]; [apply (K (num_act "SET_NW_TTL") true 15%nat); [reflexivity|unfold num_act; now rewrite NS|vm_compute; reflexivity..]|].
  destruct H as [[= <- <-]|H]; [apply (K (num_act "SET_MPLS_TTL") true 17%nat); [reflexivity|unfold num_act; now rewrite NS|vm_compute; reflexivity..]|].
  destruct H.
Qed.
Lemma bracket_words_ok g w a s n : In (w, a) bracket_words -> number_text s n -> reads g (T w ++ T "(" ++ s ++ T ")") [(a, VInt n)] /\ no_inst g (T w ++ T "(" ++ s ++ T ")").
Proof.
  intros H N. assert (A := dchar_arg s (number_dchars s n N)). assert (NE := number_nonempty s n N).
  assert (NS := read_number s n N).
  assert (K : forall fn k, nth_error (key_value_map g) k = Some (kv (w ++ "(") arg_char true ")", fn) -> fn s = Ok (a, VInt n) ->
     solid (T (w ++ "(")) = true -> forallb (fun e => misses (T (w ++ "(")) (fst e)) key_map = true ->
     forallb (fun e => misses (T (w ++ "(")) (fst e)) (firstn k (key_value_map g)) = true -> forallb (misses (T (w ++ "("))) inst_res = true -> T (w ++ "(") = T w ++ T "(" ->
     reads g (T w ++ T "(" ++ s ++ T ")") [(a, VInt n)] /\ no_inst g (T w ++ T "(" ++ s ++ T ")")).
  { intros fn k E1 E2 E3 E4 E5 E6 E7. rewrite app_assoc, <- E7. split.
    - exact (kv_reads g (w ++ "(") true ")" fn k s _ E1 A NE E2 E3 E4 E5 (or_intror eq_refl)).
    - eapply (no_inst_p g (T (w ++ "("))); eauto. }
  unfold bracket_words in H. cbn [In] in H.
  destruct H as [[= <- <-]|H]; [apply (K (num_act "SET_NW_TTL") 14%nat); [reflexivity|unfold num_act; now rewrite NS|vm_compute; reflexivity..]|].
  destruct H as [[= <- <-]|H]; [apply (K (num_act "SET_NW_TTL") 16%nat); [reflexivity|unfold num_act; now rewrite NS|vm_compute; reflexivity..]|].
  destruct H as [[= <- <-]|H]; [apply (K (num_act "SET_MPLS_TTL") 18%nat); [reflexivity|unfold num_act; now rewrite NS|vm_compute; reflexivity..]|].
  destruct H.
Qed.
Lemma set_words_ok g w f s n : In (w, f) set_words -> value_text s n -> reads g (T w ++ T ":" ++ s) [("SET_FIELD", VSet f n)] /\ no_inst g (T w ++ T ":" ++ s).
Proof.
  intros H N. assert (A := vchar_arg s (value_vchars s n N)). assert (NE := value_nonempty s n N). assert (NS := read_value s n N).
  assert (K : forall k, nth_error (key_value_map g) k = Some (kv (w ++ ":") arg_char true "", set_act f) ->
     solid (T (w ++ ":")) = true -> forallb (fun e => misses (T (w ++ ":")) (fst e)) key_map = true ->
     forallb (fun e => misses (T (w ++ ":")) (fst e)) (firstn k (key_value_map g)) = true -> forallb (misses (T (w ++ ":"))) inst_res = true -> T (w ++ ":") = T w ++ T ":" ->
     reads g (T w ++ T ":" ++ s) [("SET_FIELD", VSet f n)] /\ no_inst g (T w ++ T ":" ++ s)).
  { intros k E1 E3 E4 E5 E6 E7. rewrite app_assoc, <- E7. split.
    - assert (E2 : set_act f s = Ok ("SET_FIELD", VSet f n)) by (unfold set_act; now rewrite NS).
      assert (R := kv_reads g (w ++ ":") true "" _ k s _ E1 A NE E2 E3 E4 E5 (or_introl eq_refl)). cbn [T list_ascii_of_string] in R. now rewrite app_nil_r in R.
    - eapply (no_inst_p g (T (w ++ ":"))); eauto. }
  unfold set_words in H. cbn [In] in H.
  destruct H as [[= <- <-]|H]; [apply (K 7%nat); [reflexivity|vm_compute; reflexivity..]|].
  destruct H as [[= <- <-]|H]; [apply (K 8%nat); [reflexivity|vm_compute; reflexivity..]|].
  destruct H as [[= <- <-]|H]; [apply (K 9%nat); [reflexivity|vm_compute; reflexivity..]|].
  destruct H as [[= <- <-]|H]; [apply (K 10%nat); [reflexivity|vm_compute; reflexivity..]|].
  destruct H as [[= <- <-]|H]; [apply (K 12%nat); [reflexivity|vm_compute; reflexivity..]|].
  destruct H as [[= <- <-]|H]; [apply (K 19%nat); [reflexivity|vm_compute; reflexivity..]|].
  destruct H as [[= <- <-]|H]; [apply (K 20%nat); [reflexivity|vm_compute; reflexivity..]|].
  destruct H.
Qed.
Lemma port_arg s p : port_text s p -> all arg_char s.
Proof. intros H. eapply sub_class; [|exact (proj1 (port_chars s p H))]. vm_compute. reflexivity. Qed.
Lemma output_ok g s p : port_text s p -> reads g (T "output:" ++ s) [("OUTPUT", VInt p)] /\ no_inst g (T "output:" ++ s).
Proof.
  intros H. split.
  - assert (R := kv_reads g "output:" false "" out_of 0 s ("OUTPUT", VInt p) eq_refl (port_arg s p H) (proj2 (port_chars s p H))).
    cbn [T list_ascii_of_string] in R. rewrite app_nil_r in R. apply R; try (vm_compute; reflexivity); [unfold out_of; now rewrite (read_port s p H)|now left].
  - eapply (no_inst_p g (T "output:")); [reflexivity|vm_compute; reflexivity..].
Qed.
Lemma group_ok_text g s n v : number_text s n -> group_get g n = Ok v -> reads g (T "group:" ++ s) [("GROUP", v)] /\ no_inst g (T "group:" ++ s).
Proof.
  intros H G. split.
  - assert (R := kv_reads g "group:" false "" _ 2 s ("GROUP", v) eq_refl (dchar_arg s (number_dchars s n H)) (number_nonempty s n H)).
    cbn [T list_ascii_of_string] in R. rewrite app_nil_r in R. apply R; try (vm_compute; reflexivity); [now rewrite (py_int_number s n H); cbn [rbind]; rewrite G|now left].
  - eapply (no_inst_p g (T "group:")); [reflexivity|vm_compute; reflexivity..].
Qed.

(** ** Single words *)
Lemma word_ok g w l : In (w, l) plain_words -> reads g (T w) l /\ no_inst g (T w).
Proof.
  intros H.
  assert (K : forall n r, nth_error key_map n = Some (r, l) -> eats r (T w) [] (fun _ => True) -> solid (T w) = true ->
    forallb (fun e => misses (T w) (fst e)) (firstn n key_map) = true -> forallb (misses (T w)) inst_res = true -> reads g (T w) l /\ no_inst g (T w)).
  { intros n r E1 E2 E3 E4 E5. split.
    - intros sp sp' tl rest append acts Sp Sp' Tl. unfold parse_next_action.
      assert (M : match_token r (sp ++ T w ++ sp' ++ tl) = Some ([] ++ [Some rest])).
      { eapply token_ok; eauto. now apply solid_stop. cbn beta. exact I. }
      rewrite (first_token_at key_map n r l sp (T w) _ _ Sp E3 E1 E4 M). reflexivity.
    - apply (no_inst_p g (T w) (T w) []); auto. now rewrite app_nil_r. }
  unfold plain_words in H. cbn [In] in H.
  destruct H as [[= <- <-]|H]; [apply (K 0%nat (W "drop")); [reflexivity|apply eats_word|vm_compute; reflexivity..]|].
  destruct H as [[= <- <-]|H]; [apply (K 1%nat (W "pop_vlan")); [reflexivity|apply eats_word|vm_compute; reflexivity..]|].
  destruct H as [[= <- <-]|H]; [apply (K 2%nat (W "strip_vlan")); [reflexivity|apply eats_word|vm_compute; reflexivity..]|].
  destruct H as [[= <- <-]|H]; [apply (K 3%nat (W "dec_ttl")); [reflexivity|apply eats_word|vm_compute; reflexivity..]|].
  destruct H as [[= <- <-]|H]; [apply (K 4%nat (W "dec_mpls_ttl")); [reflexivity|apply eats_word|vm_compute; reflexivity..]|].
  destruct H as [[= <- <-]|H]; [eapply (K 5%nat); [reflexivity|apply eats_alt_l, eats_word|vm_compute; reflexivity..]|].
  destruct H.
Qed.
(** controller:max_len takes the white space after the number with it *)
Lemma npc_space_sweep : forallb (fun x => negb (re_space x) || no_paren_comma x) all_ascii = true. Proof. vm_compute. reflexivity. Qed.
Lemma npc_space s : all re_space s -> all no_paren_comma s. Proof. apply sub_class. exact npc_space_sweep. Qed.
Lemma dchar_npc s : all dchar s -> all no_paren_comma s. Proof. apply sub_class. vm_compute. reflexivity. Qed.
Lemma colon_after t c k : run after_token (":"%char :: t) c k = None.
Proof. destruct t; reflexivity. Qed.
Lemma controller_ok g s n : number_text s n -> reads g (T "controller:" ++ s) [("OUTPUT", VInt 0xfffffffd)] /\ no_inst g (T "controller:" ++ s).
Proof.
  intros H. split; [|eapply (no_inst_p g (T "controller:")); [reflexivity|vm_compute; reflexivity..]].
  intros sp sp' tl rest append acts Sp Sp' Tl. unfold parse_next_action. rewrite <- app_assoc.
  set (A := W "controller"). set (C := W "controller(" ;; Plus no_paren ;; W ")"). set (B := W "controller:" ;; Plus no_paren_comma).
  assert (M : match_token (Alt A (Alt B C)) (sp ++ T "controller:" ++ s ++ sp' ++ tl) = Some [Some rest]).
  { rewrite token_at; [|exact Sp|vm_compute; reflexivity|reflexivity].
    assert (E1 : run A (T "controller:" ++ s ++ sp' ++ tl) [] (fun s' c' => run after_token s' c' (fun s' c => Some (s', c))) = None) by (apply colon_after).
    assert (E2 : run B (T "controller:" ++ s ++ sp' ++ tl) [] (fun s' c' => run after_token s' c' (fun s' c => Some (s', c))) = Some ([], [Some rest])).
    { assert (Nc : all no_paren_comma (s ++ sp')) by (apply all_app; split; [now apply dchar_npc, (number_dchars s n)|now apply npc_space]).
      destruct (s ++ sp') as [|x u] eqn:Eu; [apply app_eq_nil in Eu as [-> _]; now apply number_nonempty in H|]. inversion Nc; subst.
      assert (EB := eats_seq (W "controller:") (Plus no_paren_comma) (T "controller:") (x :: u) [] [] _ _ (eats_word (T "controller:")) (eats_plus no_paren_comma x u ltac:(auto) ltac:(auto))).
      rewrite app_assoc with (m := sp'), Eu. rewrite app_assoc. apply EB.
      - split; [|exact I]. destruct Tl; [exact I|reflexivity].
      - apply (after_ok [] tl rest []); [constructor|exact Tl]. }
    change (run (Alt A (Alt B C) ;; after_token) (T "controller:" ++ s ++ sp' ++ tl) [] (fun s' c => Some (s', c))) with
      (match run A (T "controller:" ++ s ++ sp' ++ tl) [] (fun s' c' => run after_token s' c' (fun s' c => Some (s', c))) with
       | Some r => Some r
       | None => match run B (T "controller:" ++ s ++ sp' ++ tl) [] (fun s' c' => run after_token s' c' (fun s' c => Some (s', c))) with
                 | Some r => Some r
                 | None => run C (T "controller:" ++ s ++ sp' ++ tl) [] (fun s' c' => run after_token s' c' (fun s' c => Some (s', c)))
                 end
       end).
    rewrite E1, E2. reflexivity. }
  rewrite (first_token_at key_map 5 (Alt A (Alt B C)) _ sp (T "controller:") _ _ Sp eq_refl eq_refl ltac:(vm_compute; reflexivity) M). reflexivity.
Qed.
Lemma run_seq a b s c k : run (Seq a b) s c k = run a s c (fun s' c' => run b s' c' k). Proof. reflexivity. Qed.
Lemma eats_nil_star f : eats (Star f) [] [] (stop f).
Proof. apply eats_star. constructor. Qed.
Lemma output_len_ok g s p s' n : port_text s p -> number_text s' n ->
  let w := T "output(port=" ++ s ++ T ",max_len=" ++ s' ++ T ")" in reads g w [("OUTPUT", VInt p)] /\ no_inst g w.
Proof.
  intros H H' w. split; [|eapply (no_inst_p g (T "output(port=")); [reflexivity|vm_compute; reflexivity..]].
  intros sp sp' tl rest append acts Sp Sp' Tl. unfold parse_next_action.
  set (r := W "output(" ;; Star re_space ;; W "port=" ;; Cap (Plus arg_char) ;; Star re_space ;; W "," ;; Star re_space ;; W "max_len=" ;; Plus no_paren_comma ;; W ")").
  assert (M : match_token r (sp ++ w ++ sp' ++ tl) = Some ([Some s] ++ [Some rest])).
  { apply (token_ok r sp w sp' tl rest [Some s] (fun _ => True)); auto; [reflexivity|].
    assert (A := port_arg s p H). assert (N := proj2 (port_chars s p H)).
    assert (A' := dchar_npc s' (number_dchars s' n H')). assert (N' := number_nonempty s' n H').
    intros v c k res _ K. unfold r, w.
    change (T "output(port=" ++ s ++ T ",max_len=" ++ s' ++ T ")") with (T "output(" ++ [] ++ T "port=" ++ s ++ [] ++ T "," ++ [] ++ T "max_len=" ++ s' ++ T ")").
    rewrite <- !app_assoc.
    rewrite run_seq. apply (eats_word (T "output(")); [exact I|]. rewrite run_seq. apply (eats_nil_star re_space); [reflexivity|].
    rewrite run_seq. apply (eats_word (T "port=")); [exact I|]. rewrite run_seq. apply (cap_eats arg_char true s A N); [reflexivity|].
    rewrite run_seq. apply (eats_nil_star re_space); [reflexivity|]. rewrite run_seq. apply (eats_word (T ",")); [exact I|].
    rewrite run_seq. apply (eats_nil_star re_space); [reflexivity|]. rewrite run_seq. apply (eats_word (T "max_len=")); [exact I|].
    rewrite run_seq. destruct s' as [|x u]; [congruence|]. inversion A'; subst. apply (eats_plus no_paren_comma x u); auto; [reflexivity|].
    apply (eats_word (T ")")); [exact I|]. rewrite !app_nil_r. exact K. }
  revert M. unfold w. rewrite <- app_assoc. intros M.
  rewrite (first_token_none key_map sp (T "output(port=") _ Sp eq_refl ltac:(vm_compute; reflexivity)),
    (first_token_at (key_value_map g) 1 r out_of sp (T "output(port=") _ _ Sp eq_refl eq_refl ltac:(vm_compute; reflexivity) M).
  cbn [app group_text nth_error last_group last]. unfold out_of. rewrite (read_port s p H), fold_one. reflexivity.
Qed.

(** ** set_field *)
Lemma star_back f u m v c k res : all f u -> all f m -> stop f v ->
  (forall a b, m = a ++ b -> a <> [] -> k (b ++ v) c = None) -> k (m ++ v) c = Some res -> run (Star f) (u ++ m ++ v) c k = Some res.
Proof.
  intros U M St B K. cbn [run].
  assert (L : forall a b, m = a ++ b -> (fix go s := match s with
                 | [] => k [] c
                 | x :: t => if f x then match go t with Some r => Some r | None => k s c end else k s c
                 end) (b ++ v) = match a with [] => Some res | _ => None end).
  { intros a b. revert a. induction b as [|x b IH]; intros a E.
    - cbn [app]. rewrite app_nil_r in E. subst a. destruct v as [|y v].
      + destruct m as [|z m]; [exact K|]. apply (B (z :: m) []); [now rewrite app_nil_r|discriminate].
      + cbn [stop] in St. rewrite St. destruct m as [|z m]; [exact K|]. apply (B (z :: m) []); [now rewrite app_nil_r|discriminate].
    - cbn [app]. assert (Ex : f x = true). { unfold all in M. rewrite Forall_forall in M. apply M. rewrite E. apply in_or_app. right. now left. }
      rewrite Ex, (IH (a ++ [x])) by (rewrite <- app_assoc; exact E).
      assert (D : match a ++ [x] with [] => Some res | _ :: _ => None end = None) by (destruct a; reflexivity). rewrite D. destruct a as [|y a].
      + cbn [app] in E. subst m. exact K.
      + apply (B (y :: a) (x :: b)); [exact E|discriminate]. }
  induction U as [|x u Ex U IH]; cbn [app]; [exact (L [] m eq_refl)|]. now rewrite Ex, IH.
Qed.
Definition arrow : re := Opt (Cap (W "/" ;; Plus no_paren_comma)) ;; W "->" ;; Cap (Plus name_char).
Lemma arrow_none s c k : match s with [] => True | y :: _ => y <> "/"%char /\ y <> "-"%char end -> run arrow s c k = None.
Proof.
  destruct s as [|y s]; [reflexivity|]. intros [N1 N2]. unfold arrow. cbn [run W T list_ascii_of_string Word].
  rewrite (proj2 (Ascii.eqb_neq _ _)) by congruence. rewrite (proj2 (Ascii.eqb_neq _ _)) by congruence. reflexivity.
Qed.
Lemma vchar_name_sweep : forallb (fun e => forallb (fun c => name_char c && arg_slash c && negb (Ascii.eqb c "/") && negb (Ascii.eqb c "-")) (T (fst e)) && negb (text_eqb (T (fst e)) []))
  (field_names ++ ttl_names) = true.
Proof. vm_compute. reflexivity. Qed.
Definition name_like (nm : text) : Prop := all (fun c => name_char c && arg_slash c && negb (Ascii.eqb c "/") && negb (Ascii.eqb c "-")) nm /\ nm <> [].
Lemma names_like w f : In (w, f) (field_names ++ ttl_names) -> name_like (T w).
Proof.
  intros H. assert (S := vchar_name_sweep). rewrite forallb_forall in S. specialize (S _ H). cbn [fst] in S. apply andb_true_iff in S as [S1 S2]. split.
  - apply Forall_forall. now apply forallb_forall.
  - intros E. rewrite E in S2. discriminate S2.
Qed.
Lemma set_field_eats v nm : all arg_slash v -> v <> [] -> name_like nm ->
  eats set_field_re (T "set_field:" ++ v ++ T "->" ++ nm) [Some v; None; Some nm] (fun t => match t with [] => True | x :: _ => re_space x = true \/ x = ","%char end).
Proof.
  intros A N [L NN] t c k res O K. unfold set_field_re. fold arrow. rewrite <- !app_assoc. rewrite run_seq. apply (eats_word (T "set_field:")); [exact I|].
  destruct v as [|x v]; [congruence|]. inversion A as [|? ? Ax Av]; subst. rewrite app_nil_r.
  change (run (Cap (Plus arg_slash) ;; arrow) ((x :: v) ++ T "->" ++ nm ++ t) c k) with
    (if arg_slash x then run (Star arg_slash) (v ++ T "->" ++ nm ++ t) c (fun s' c' =>
       run arrow s' (c' ++ [Some (firstn (List.length ((x :: v) ++ T "->" ++ nm ++ t) - List.length s') ((x :: v) ++ T "->" ++ nm ++ t))]) k) else None).
  rewrite Ax. rewrite (app_assoc (T "->")).
  assert (Lm : all arg_slash (T "->" ++ nm)).
  { apply all_app. split; [repeat constructor|]. eapply Forall_impl; [|exact L]. cbn beta. intros y. rewrite !andb_true_iff. tauto. }
  apply star_back; auto.
  - destruct t as [|y t]; [exact I|]. cbn [stop]. destruct O as [O| ->]; [now apply slash_space|reflexivity].
  - intros a b E Na. apply arrow_none. destruct b as [|y b].
    + cbn [app]. destruct t as [|y t]; [exact I|]. destruct O as [O| ->]; [|split; discriminate]. split; intros ->; discriminate O.
    + cbn [app]. destruct a as [|a1 a]; [congruence|]. injection E as _ E. destruct a as [|a2 a].
      * injection E as <- _. split; discriminate.
      * injection E as _ E. unfold all in L. rewrite Forall_forall in L. specialize (L y). rewrite !andb_true_iff, !negb_true_iff, !Ascii.eqb_neq in L.
        destruct L as [[_ L1] L2]; [rewrite E; apply in_or_app; right; now left|]. now split.
  - cbn beta.
    assert (F : firstn (List.length ((x :: v) ++ (T "->" ++ nm) ++ t) - List.length ((T "->" ++ nm) ++ t)) ((x :: v) ++ (T "->" ++ nm) ++ t) = x :: v).
    { rewrite (app_length (x :: v)), Nat.add_sub, firstn_app, firstn_all, Nat.sub_diag. cbn [firstn]. now rewrite app_nil_r. }
    rewrite F. unfold arrow. rewrite run_seq.
    change (run (Opt ?a) ?s ?c ?k) with (match run a s c k with Some r => Some r | None => k s (c ++ repeat None (groups_in a)) end).
    rewrite <- app_assoc.
    change (run (Cap (W "/" ;; Plus no_paren_comma)) (T "->" ++ nm ++ t) (c ++ [Some (x :: v)])) with (fun k0 : text -> caps -> option (text * caps) => @None (text * caps)).
    cbn beta iota. rewrite run_seq. apply (eats_word (T "->")); [exact I|]. rewrite <- !app_assoc.
    apply (cap_eats name_char true nm); [eapply Forall_impl; [|exact L]; cbn beta; intros y; rewrite !andb_true_iff; tauto|exact NN| |].
    + destruct t as [|y t]; [exact I|]. cbn [stop]. destruct O as [O| ->]; [now apply name_space|reflexivity].
    + rewrite <- !app_assoc. exact K.
Qed.
Lemma set_text_ok g v nm a : all arg_slash v -> v <> [] -> name_like nm -> (forall rest, set_field_action [Some v; None; Some nm; Some rest] = Ok a) ->
  let w := T "set_field:" ++ v ++ T "->" ++ nm in reads g w [a] /\ no_inst g w.
Proof.
  intros A N L S w. split; [|eapply (no_inst_p g (T "set_field:")); [reflexivity|vm_compute; reflexivity..]].
  intros sp sp' tl rest append acts Sp Sp' Tl. unfold parse_next_action.
  assert (M : match_token set_field_re (sp ++ w ++ sp' ++ tl) = Some ([Some v; None; Some nm] ++ [Some rest])).
  { eapply token_ok; eauto; [reflexivity|now apply set_field_eats|]. cbn beta. destruct Sp' as [|x sp' E Sp']; cbn [app]; [destruct Tl; [exact I|now right]|now left]. }
  revert M. unfold w. rewrite <- app_assoc. intros M.
  rewrite (first_token_none key_map sp (T "set_field:") _ Sp eq_refl ltac:(vm_compute; reflexivity)),
    (first_token_none (key_value_map g) sp (T "set_field:") _ Sp eq_refl ltac:(vm_compute; reflexivity)), M.
  cbn [app last_group last]. rewrite S, fold_one. reflexivity.
Qed.
Lemma names_sweep : forallb (fun e => match parse_field_name (fst e) with Some f => String.eqb f (snd e) | None => false end &&
  Bool.eqb (String.eqb (fst e) "vlan_vid") (String.eqb (snd e) "VLAN_VID") && negb (String.eqb (fst e) "mpls_ttl") && negb (String.eqb (fst e) "nw_ttl")) field_names = true.
Proof. vm_compute. reflexivity. Qed.
Lemma names_facts w f : In (w, f) field_names -> parse_field_name w = Some f /\ String.eqb w "vlan_vid" = String.eqb f "VLAN_VID" /\
  String.eqb w "mpls_ttl" = false /\ String.eqb w "nw_ttl" = false.
Proof.
  intros H. assert (S := names_sweep). rewrite forallb_forall in S. specialize (S _ H). cbn [fst snd] in S.
  rewrite !andb_true_iff, !negb_true_iff in S. destruct S as [[[S1 S2] S3] S4]. destruct (parse_field_name w) as [f'|]; [|discriminate].
  apply String.eqb_eq in S1 as ->. apply Bool.eqb_prop in S2. auto.
Qed.
Lemma S_T w : S_ (T w) = w. Proof. apply string_of_list_ascii_of_string. Qed.
Lemma field_ok g w f s n : In (w, f) field_names -> value_text s n ->
  let t := T "set_field:" ++ s ++ T "->" ++ T w in
  let a := ("SET_FIELD", VSet f (if String.eqb f "VLAN_VID" then n mod 4096 else n)) in reads g t [a] /\ no_inst g t.
Proof.
  intros H V t a. apply set_text_ok.
  - now apply vchar_slash, (value_vchars s n).
  - now apply (value_nonempty s n).
  - apply (names_like w f). apply in_or_app. now left.
  - intros rest. unfold set_field_action. cbn [nth_error group_text]. rewrite (read_value s n V). cbn [rbind]. rewrite S_T.
    destruct (names_facts w f H) as (E1 & E2 & E3 & E4). rewrite E1, E2, E3, E4. unfold a. do 3 f_equal.
    destruct (String.eqb f "VLAN_VID"); [|reflexivity]. change 0xfff with (Z.ones 12). now rewrite Z.land_ones by lia.
Qed.
Lemma ttl_ok g w b s n : In (w, b) ttl_names -> number_text s n ->
  let t := T "set_field:" ++ s ++ T "->" ++ T w in reads g t [(b, VInt n)] /\ no_inst g t.
Proof.
  intros H V t. apply set_text_ok.
  - now apply vchar_slash, dchar_vchar, (number_dchars s n).
  - now apply (number_nonempty s n).
  - apply (names_like w b). apply in_or_app. now right.
  - intros rest. unfold set_field_action. cbn [nth_error group_text]. rewrite (read_number s n V). cbn [rbind]. rewrite S_T.
    destruct H as [[= <- <-]|[[= <- <-]|[]]]; reflexivity.
Qed.

(** ** A port on its own *)
Definition all_res : list re := map fst key_map ++ map fst (key_value_map []) ++ [set_field_re; load_re].
Lemma bare_ok g s : (exists q t, s = q ++ t /\ solid q = true /\ forallb (misses q) all_res = true /\ forallb (misses q) inst_res = true) ->
  all alnum s -> port_text s (match parse_port s with Ok k => k | _ => 0 end) ->
  reads g s [("OUTPUT", VInt (match parse_port s with Ok k => k | _ => 0 end))] /\ no_inst g s.
Proof.
  intros (q & t & E & S & M & Mi) A Pt. split; [|now apply (no_inst_p g q s t)].
  intros sp sp' tl rest append acts Sp Sp' Tl. unfold parse_next_action.
  assert (Mt : match_token (Cap (Star alnum)) (sp ++ s ++ sp' ++ tl) = Some ([Some s] ++ [Some rest])).
  { apply (token_ok (Cap (Star alnum)) sp s sp' tl rest [Some s] (stop alnum)); auto.
    - rewrite E, <- app_assoc. now apply solid_stop.
    - apply (eats_cap (Star alnum) s []). now apply eats_star.
    - eapply tail_stop; eauto. intros x X. unfold alnum. now rewrite (name_space x X). }
  unfold all_res in M. rewrite !forallb_app, !andb_true_iff in M. destruct M as (M1 & M2 & M3). cbn [forallb] in M3. rewrite !andb_true_iff in M3. destruct M3 as (M3 & M4 & _).
  assert (Q1 : first_token key_map (sp ++ s ++ sp' ++ tl) = None).
  { rewrite E, <- app_assoc. apply first_token_none; auto. }
  assert (Q2 : first_token (key_value_map g) (sp ++ s ++ sp' ++ tl) = None).
  { rewrite E, <- app_assoc. apply first_token_none; auto. }
  assert (Q3 : match_token set_field_re (sp ++ s ++ sp' ++ tl) = None) by (rewrite E, <- app_assoc; now apply token_miss).
  assert (Q4 : match_token load_re (sp ++ s ++ sp' ++ tl) = None) by (rewrite E, <- app_assoc; now apply token_miss).
  rewrite Q1, Q2, Q3, Q4, Mt. cbn [app group_text nth_error last_group last].
  assert (R := read_port _ _ Pt). destruct (parse_port s) as [k|e]; [|discriminate R]. rewrite fold_one. reflexivity.
Qed.
Lemma digit_misses : forallb (fun d => solid [d] && forallb (misses [d]) all_res && forallb (misses [d]) inst_res) (T "0123456789") = true.
Proof. vm_compute. reflexivity. Qed.
Lemma port_name_misses : forallb (fun e => String.eqb (fst e) "in_port" || String.eqb (fst e) "controller" ||
  (solid (T (fst e)) && forallb (misses (T (fst e))) all_res && forallb (misses (T (fst e))) inst_res && forallb alnum (T (fst e)))) port_names = true.
Proof. vm_compute. reflexivity. Qed.
Lemma port_alone g s p : port_text s p -> s <> T "in_port" -> reads g s [("OUTPUT", VInt p)] /\ no_inst g s.
Proof.
  intros H N. assert (R := read_port s p H). destruct (list_eq_dec ascii_dec s (T "controller")) as [->|C].
  - assert (p = 0xfffffffd) as -> by (vm_compute in R; now injection R as <-). apply word_ok. cbn. tauto.
  - assert (B := bare_ok g s). rewrite R in B. apply B; auto; clear B.
    + destruct H as [s n H|s n H].
      * destruct (number_head s n H) as (d & t & -> & D). exists [d], t. split; [reflexivity|]. assert (S := digit_misses). rewrite forallb_forall in S.
        apply existsb_exists in D as (x & Hx & Ex). apply Ascii.eqb_eq in Ex as ->. specialize (S x Hx). rewrite !andb_true_iff in S. tauto.
      * exists (T s), []. rewrite app_nil_r. split; [reflexivity|]. assert (S := port_name_misses). rewrite forallb_forall in S. specialize (S _ H). cbn [fst] in S.
        rewrite !orb_true_iff, !andb_true_iff, !String.eqb_eq in S. destruct S as [[-> | ->]|S]; [congruence|congruence|tauto].
    + destruct H as [s n H|s n H].
      * eapply sub_class; [|exact (number_dchars s n H)]. vm_compute. reflexivity.
      * assert (S := port_name_misses). rewrite forallb_forall in S. specialize (S _ H). cbn [fst] in S.
        rewrite !orb_true_iff, !andb_true_iff, !String.eqb_eq in S. destruct S as [[-> | ->]|[_ S]]; [congruence|congruence|]. apply Forall_forall. now apply forallb_forall.
Qed.

Lemma group_get_in g n v : NoDup (map fst g) -> In (n, v) g -> group_get g n = Ok v.
Proof.
  induction g as [|[m w] g IH]; intros ND H; [destruct H|]. cbn [group_get]. cbn [map fst] in ND. inversion ND as [|? ? N1 N2]; subst.
  destruct H as [[= -> ->]|H]; [now rewrite Z.eqb_refl|]. destruct (Z.eqb_spec m n) as [->|_]; [|now apply IH].
  exfalso. apply N1. apply in_map_iff. now exists (n, v).
Qed.
Lemma action_ok g w l : NoDup (map fst g) -> action_text g w l -> reads g w l /\ no_inst g w.
Proof.
  intros ND H. destruct H as [w l H|s n H|w a s n H N|w a s n H N|s p H|s p s' n H N|s p H N|s n v N H|w f s n H N|w f s n H N|w a s n H N].
  - now apply word_ok.
  - now apply (controller_ok g s n).
  - now apply number_words_ok.
  - now apply bracket_words_ok.
  - now apply output_ok.
  - now apply (output_len_ok g s p s' n).
  - now apply port_alone.
  - apply (group_ok_text g s n v N). now apply group_get_in.
  - now apply set_words_ok.
  - now apply field_ok.
  - now apply ttl_ok.
Qed.
