(** Reading lists of actions and instructions of SpecOvs.v. *)
From Coq Require Import Lia ZifyBool ZifyNat.
From Verif Require Import SpecOvs FormatProofs OvsRegex OvsValues OvsActions.
Import Text.
Local Open Scope string_scope.
Local Open Scope list_scope.
Local Open Scope Z_scope.

(** ** No line breaks *)
Definition plainc (c : ascii) : bool := negb (Ascii.eqb c newline).
Lemma plain_newline s : all plainc s <-> ~ In newline s.
Proof.
  unfold all. rewrite Forall_forall. unfold plainc. split.
  - intros H J. specialize (H _ J). now rewrite Ascii.eqb_refl in H.
  - intros H x J. apply negb_true_iff, Ascii.eqb_neq. congruence.
Qed.
Lemma vchar_plain s : all vchar s -> all plainc s. Proof. apply sub_class. vm_compute. reflexivity. Qed.
Lemma number_plain s n : number_text s n -> all plainc s. Proof. intros H. now apply vchar_plain, dchar_vchar, (number_dchars s n). Qed.
Lemma value_plain s n : value_text s n -> all plainc s. Proof. intros H. now apply vchar_plain, (value_vchars s n). Qed.
Lemma port_plain s n : port_text s n -> all plainc s. Proof. intros H. eapply sub_class; [|exact (proj1 (port_chars s n H))]. vm_compute. reflexivity. Qed.
Lemma names_plain_sweep : forallb (fun w => forallb plainc (T w) && negb (text_eqb (T w) []))
  (map fst plain_words ++ map fst number_words ++ map fst bracket_words ++ map fst set_words ++ map fst field_names ++ map fst ttl_names) = true.
Proof. vm_compute. reflexivity. Qed.
Lemma names_plain w : In w (map fst plain_words ++ map fst number_words ++ map fst bracket_words ++ map fst set_words ++ map fst field_names ++ map fst ttl_names) ->
  all plainc (T w) /\ T w <> [].
Proof.
  intros H. assert (S := names_plain_sweep). rewrite forallb_forall in S. specialize (S _ H). apply andb_true_iff in S as [S1 S2]. split.
  - apply Forall_forall. now apply forallb_forall.
  - intros E. rewrite E in S2. discriminate S2.
Qed.
Ltac pick H := apply names_plain; rewrite !in_app_iff; match type of H with In (?w, ?f) ?l => assert (In w (map fst l)) by (apply in_map_iff; exists (w, f); auto); tauto end.
Lemma action_plain g w l : action_text g w l -> all plainc w /\ w <> [].
Proof.
  assert (L : forall s, forallb plainc (T s) = true -> all plainc (T s)) by (intros s H; apply Forall_forall; now apply forallb_forall).
  intros H. destruct H as [w l H|s n H|w a s n H N|w a s n H N|s p H|s p s' n H N|s p H N|s n v N H|w f s n H N|w f s n H N|w a s n H N].
  - pick H.
  - split; [|discriminate]. apply all_app. split; [now apply L|now apply (number_plain s n)].
  - assert (P : all plainc (T w) /\ T w <> []) by pick H. destruct P as [P1 P2]. split; [|destruct (T w); [congruence|discriminate]].
    apply all_app. split; auto. apply all_app. split; [now apply L|now apply (number_plain s n)].
  - assert (P : all plainc (T w) /\ T w <> []) by pick H. destruct P as [P1 P2]. split; [|destruct (T w); [congruence|discriminate]].
    apply all_app. split; auto. apply all_app. split; [now apply L|]. apply all_app. split; [now apply (number_plain s n)|now apply L].
  - split; [|discriminate]. apply all_app. split; [now apply L|now apply (port_plain s p)].
  - split; [|discriminate]. apply all_app. split; [now apply L|]. apply all_app. split; [now apply (port_plain s p)|].
    apply all_app. split; [now apply L|]. apply all_app. split; [now apply (number_plain s' n)|now apply L].
  - split; [now apply (port_plain s p)|now apply (port_chars s p)].
  - split; [|discriminate]. apply all_app. split; [now apply L|now apply (number_plain s n)].
  - assert (P : all plainc (T w) /\ T w <> []) by pick H. destruct P as [P1 P2]. split; [|destruct (T w); [congruence|discriminate]].
    apply all_app. split; auto. apply all_app. split; [now apply L|now apply (value_plain s n)].
  - assert (P : all plainc (T w) /\ T w <> []) by pick H. destruct P as [P1 P2]. split; [|discriminate].
    apply all_app. split; [now apply L|]. apply all_app. split; [now apply (value_plain s n)|]. apply all_app. split; [now apply L|auto].
  - assert (P : all plainc (T w) /\ T w <> []) by pick H. destruct P as [P1 P2]. split; [|discriminate].
    apply all_app. split; [now apply L|]. apply all_app. split; [now apply (number_plain s n)|]. apply all_app. split; [now apply L|auto].
Qed.
Lemma gap_space s : gap s -> all re_space s.
Proof. intros H. eapply Forall_impl; [|exact H]. intros c J. cbn in J. destruct J as [<-|[<-|[]]]; reflexivity. Qed.
Lemma gap_plain s : gap s -> all plainc s.
Proof. intros H. eapply Forall_impl; [|exact H]. intros c J. cbn in J. destruct J as [<-|[<-|[]]]; reflexivity. Qed.
Lemma listed_plain {X} (P : text -> X -> Prop) s l : (forall w x, P w x -> all plainc w) -> listed P s l -> all plainc s.
Proof.
  intros HP. induction 1 as [a w b x A B Pw|a w b x s l A B Pw _ IH].
  - repeat (apply all_app; split); eauto using gap_plain.
  - apply all_app. split; [now apply gap_plain|]. apply all_app. split; [eauto|]. apply all_app. split; [now apply gap_plain|].
    apply all_app. split; [repeat constructor|exact IH].
Qed.

(** ** Lists of actions *)
Lemma rfold_app {A B} (f : B -> A -> result B) l m : forall b, rfold f (l ++ m) b = (do c <- rfold f l b; rfold f m c).
Proof. induction l as [|x l IH]; intros b; cbn [app rfold]; [reflexivity|]. destruct (f b x); cbn [rbind]; auto. Qed.
Lemma actions_loop_ok g append s ls : NoDup (map fst g) -> listed (action_text g) s ls -> forall fuel acts, (List.length s <= fuel)%nat ->
  actions_loop g fuel append s acts = rfold append (List.concat ls) acts.
Proof.
  intros ND. induction 1 as [a w b x A B Pw|a w b x s l A B Pw Ls IH]; intros fuel acts F.
  - destruct (action_ok g w x ND Pw) as [R _]. destruct (action_plain g w x Pw) as [_ NE].
    specialize (R a b [] [] append acts (gap_space a A) (gap_space b B) tail_end). rewrite app_nil_r in R.
    destruct (a ++ w ++ b) as [|y t] eqn:E. { apply app_eq_nil in E as [_ E]. apply app_eq_nil in E as [E _]. congruence. }
    cbn [List.length] in F. destruct fuel as [|fuel]; [lia|]. cbn [actions_loop]. rewrite R. cbn [List.concat]. rewrite app_nil_r.
    destruct (rfold append x acts); cbn [rbind]; [destruct fuel; reflexivity|reflexivity].
  - destruct (action_ok g w x ND Pw) as [R _]. destruct (action_plain g w x Pw) as [_ NE].
    assert (Pl : ~ In newline s) by (apply plain_newline; eapply listed_plain; [|exact Ls]; intros w' x' H'; now apply (action_plain g w' x')).
    specialize (R a b ("," :: s)%char s append acts (gap_space a A) (gap_space b B) (tail_comma s Pl)).
    change (T "," ++ s) with ("," :: s)%char in *.
    assert (Len : (List.length s < List.length (a ++ w ++ b ++ ("," :: s)%char))%nat) by (rewrite !app_length; cbn [List.length]; lia).
    destruct (a ++ w ++ b ++ ("," :: s)%char) as [|y t] eqn:E; [cbn in Len; lia|].
    destruct fuel as [|fuel]; [lia|]. cbn [actions_loop]. rewrite R. cbn [List.concat]. rewrite rfold_app.
    destruct (rfold append x acts) as [acts'|e]; cbn [rbind]; [|reflexivity]. apply IH. lia.
Qed.
Lemma actions_read g append s l : NoDup (map fst g) -> actions_text g s l -> actions_from_ovs g append s = rfold append l al_empty.
Proof. intros ND (ls & L & ->). unfold actions_from_ovs. now apply actions_loop_ok. Qed.

(** ** Instructions *)
Definition upd (i : instructions) (p : piece) : result instructions :=
  match p with
  | PAct l => do a <- rfold al_append l (apply_actions i); Ok (mkInst (goto_table i) a (write_actions i) (write_metadata i) (clear_actions i) (meter i))
  | PClear => Ok (mkInst (goto_table i) (apply_actions i) (write_actions i) (write_metadata i) true (meter i))
  | PWrite l => do w <- as_of l; Ok (mkInst (goto_table i) (apply_actions i) w (write_metadata i) (clear_actions i) (meter i))
  | PMetadata v m => Ok (mkInst (goto_table i) (apply_actions i) (write_actions i) (Some (v, m)) (clear_actions i) (meter i))
  | PGoto t => Ok (mkInst (Some t) (apply_actions i) (write_actions i) (write_metadata i) (clear_actions i) (meter i))
  end.
Definition preads (g : group_table) (w : text) (p : piece) : Prop :=
  forall sp sp' tl rest i, all re_space sp -> all re_space sp' -> tail_of tl rest ->
  parse_next_instruction g (sp ++ w ++ sp' ++ tl) i = (do i' <- upd i p; Ok (Some (rest, i'))).

Lemma nested_closed v c k : run nested (")"%char :: v) c k = k (")"%char :: v) c.
Proof. unfold nested. cbn [run W T list_ascii_of_string Word groups_in Plus repeat Nat.add]. cbn. now rewrite app_nil_r. Qed.
Lemma rep_stuck a s c k : (forall k', run a s c k' = k' s c) -> run (Rep a) s c k = k s c.
Proof. intros H. cbn [run]. destruct s as [|x s]; [reflexivity|]. cbn [List.length]. rewrite H. cbn [List.length]. now rewrite Nat.ltb_irrefl. Qed.
Lemma nested_eats u : all no_paren u -> eats (nested ;; Rep nested) u [] (fun t => match t with x :: _ => x = ")"%char | [] => False end).
Proof.
  intros A v c k res O K. destruct v as [|x v]; [contradiction|]. subst x. rewrite app_nil_r in K.
  rewrite run_seq. unfold nested at 1. rewrite run_seq. apply (eats_star no_paren u A); [reflexivity|].
  rewrite app_nil_r. cut (run (Rep nested) (")"%char :: v) c k = Some res).
  - intros R. cbn [run W T list_ascii_of_string Word groups_in Plus repeat Nat.add Ascii.eqb Bool.eqb]. cbn [run] in R |- *. now rewrite app_nil_r.
  - rewrite rep_stuck; [exact K|]. intros k'. apply nested_closed.
Qed.
Lemma clear_ok g : preads g (T "clear_actions") PClear.
Proof.
  intros sp sp' tl rest i Sp Sp' Tl. unfold parse_next_instruction.
  rewrite (token_ok (W "clear_actions") sp (T "clear_actions") sp' tl rest [] (fun _ => True) Sp Sp' Tl eq_refl (eats_word _) I). reflexivity.
Qed.
Ltac miss p := match goal with Sp : all re_space ?sp |- context [match_token ?r (?sp ++ T p ++ ?t)] => rewrite (token_miss r sp (T p) t Sp eq_refl eq_refl) end.
Lemma write_ok g s l : NoDup (map fst g) -> actions_text g s l -> ~ In "("%char s -> ~ In ")"%char s -> preads g (T "write_actions(" ++ s ++ T ")") (PWrite l).
Proof.
  intros ND A N1 N2 sp sp' tl rest i Sp Sp' Tl. unfold parse_next_instruction.
  assert (Np : all no_paren s).
  { apply Forall_forall. intros x Hx. unfold no_paren, one_of. apply negb_true_iff. cbn [existsb T list_ascii_of_string].
    rewrite !orb_false_iff, !Ascii.eqb_neq. repeat split; congruence. }
  assert (M : match_token write_actions_re (sp ++ (T "write_actions(" ++ s ++ T ")") ++ sp' ++ tl) = Some ([Some s] ++ [Some rest])).
  { apply (token_ok write_actions_re sp _ sp' tl rest [Some s] (fun _ => True)); auto; [reflexivity|].
    intros v c k res _ K. unfold write_actions_re. rewrite <- !app_assoc, run_seq. apply (eats_word (T "write_actions(")); [exact I|].
    rewrite run_seq. apply (eats_cap _ s [] _ (nested_eats s Np)); [reflexivity|]. apply (eats_word (T ")")); [exact I|]. cbn [app]. rewrite !app_nil_r. exact K. }
  rewrite M. rewrite <- app_assoc. miss "write_actions(". cbn [app group_text nth_error last_group last upd].
  rewrite (actions_read g as_append s l ND A). fold (as_extend al_empty l). fold (as_of l). destruct (as_of l); reflexivity.
Qed.
Definition edge (t : text) : Prop := match t with [] => True | x :: _ => re_space x = true \/ x = ","%char end.
Lemma tail_head sp tl rest : all re_space sp -> tail_of tl rest -> edge (sp ++ tl).
Proof. intros Sp Tl. destruct Sp as [|x sp E Sp]; cbn [app]; [destruct Tl; [exact I|now right]|now left]. Qed.
Lemma metadata_ok g s v : number_text s v -> preads g (T "write_metadata:" ++ s) (PMetadata v None).
Proof.
  intros H sp sp' tl rest i Sp Sp' Tl. unfold parse_next_instruction.
  assert (A : all arg_slash s) by now apply vchar_slash, dchar_vchar, (number_dchars s v). assert (N := number_nonempty s v H).
  assert (M : match_token write_metadata_re (sp ++ (T "write_metadata:" ++ s) ++ sp' ++ tl) = Some ([Some s; None] ++ [Some rest])).
  { apply (token_ok write_metadata_re sp _ sp' tl rest [Some s; None] edge); auto; [reflexivity| |exact (tail_head sp' tl rest Sp' Tl)].
    intros t c k res O K. unfold write_metadata_re. rewrite <- !app_assoc, run_seq. apply (eats_word (T "write_metadata:")); [exact I|].
    rewrite run_seq. apply (cap_eats arg_slash true s A N).
    - destruct t as [|y t]; [exact I|]. cbn [stop]. destruct O as [O| ->]; [now apply slash_space|reflexivity].
    - rewrite app_nil_r.
      change (run (Opt ?a) t ?c ?k) with (match run a t c k with Some r => Some r | None => k t (c ++ repeat None (groups_in a)) end).
      assert (Z : forall k', run (W "/" ;; Cap (Plus arg_char)) t (c ++ [Some s]) k' = None).
      { intros k'. destruct t as [|y t]; [reflexivity|]. cbn [run W T list_ascii_of_string Word]. rewrite (proj2 (Ascii.eqb_neq _ _)); [reflexivity|].
        intros <-. destruct O as [O|O]; discriminate O. }
      rewrite Z. cbn [groups_in Plus repeat Nat.add W Word T list_ascii_of_string]. rewrite <- app_assoc. exact K. }
  rewrite M. rewrite <- app_assoc. miss "write_metadata:". miss "write_metadata:". cbn [app group_text nth_error last_group last upd rbind].
  rewrite (read_number s v H). reflexivity.
Qed.
Lemma metadata_mask_ok g s v s' m : number_text s v -> number_text s' m -> preads g (T "write_metadata:" ++ s ++ T "/" ++ s') (PMetadata v (Some m)).
Proof.
  intros H H' sp sp' tl rest i Sp Sp' Tl. unfold parse_next_instruction.
  assert (A : all arg_slash s) by now apply vchar_slash, dchar_vchar, (number_dchars s v). assert (N := number_nonempty s v H).
  assert (A' : all arg_char s') by now apply dchar_arg, (number_dchars s' m). assert (N' := number_nonempty s' m H').
  assert (M : match_token write_metadata_re (sp ++ (T "write_metadata:" ++ s ++ T "/" ++ s') ++ sp' ++ tl) = Some ([Some s; Some s'] ++ [Some rest])).
  { apply (token_ok write_metadata_re sp _ sp' tl rest [Some s; Some s'] edge); auto; [reflexivity| |exact (tail_head sp' tl rest Sp' Tl)].
    intros t c k res O K. unfold write_metadata_re. rewrite <- !app_assoc, run_seq. apply (eats_word (T "write_metadata:")); [exact I|].
    rewrite run_seq. apply (cap_eats arg_slash true s A N); [reflexivity|]. rewrite app_nil_r.
    assert (E : eats (W "/" ;; Cap (Plus arg_char)) (T "/" ++ s') ([] ++ [Some s']) edge).
    { eapply eats_weaken; [apply eats_seq; [apply (eats_word (T "/"))|apply (cap_eats arg_char true s' A' N')]|]. cbn beta.
      intros [|y u] Q; [split; exact I|]. split; [|exact I]. cbn [stop]. destruct Q as [Q| ->]; [now apply arg_space|reflexivity]. }
    rewrite (app_assoc (T "/")). apply (eats_opt _ _ _ _ E); [exact O|]. cbn [app]. rewrite <- app_assoc. exact K. }
  rewrite M. rewrite <- app_assoc. miss "write_metadata:". miss "write_metadata:". cbn [app group_text nth_error last_group last upd].
  destruct s' as [|x s']; [congruence|]. rewrite (read_number _ m H'). cbn [rmap rbind]. rewrite (read_number s v H). reflexivity.
Qed.
Lemma goto_ok g s n : number_text s n -> preads g (T "goto_table:" ++ s) (PGoto n).
Proof.
  intros H sp sp' tl rest i Sp Sp' Tl. unfold parse_next_instruction.
  assert (A : all arg_char s) by now apply dchar_arg, (number_dchars s n). assert (N := number_nonempty s n H).
  assert (M : match_token goto_re (sp ++ (T "goto_table:" ++ s) ++ sp' ++ tl) = Some (([] ++ [Some s]) ++ [Some rest])).
  { eapply (token_ok goto_re sp _ sp' tl rest); eauto; [reflexivity|apply eats_seq; [apply (eats_word (T "goto_table:"))|apply (cap_eats arg_char true s A N)]|].
    cbn beta. split; [|exact I]. eapply tail_stop; eauto using arg_space. }
  rewrite M. rewrite <- app_assoc. miss "goto_table:". miss "goto_table:". miss "goto_table:". cbn [app group_text nth_error last_group last upd rbind].
  rewrite (read_number s n H). reflexivity.
Qed.
Lemma resubmit_ok g d n : numeral 10 [d] n -> preads g (T "resubmit(," ++ [d] ++ T ")") (PGoto n).
Proof.
  intros H sp sp' tl rest i Sp Sp' Tl. unfold parse_next_instruction.
  assert (Nt : number_text [d] n).
  { apply nt_dec; [exact H|]. destruct (ascii_dec d "0"%char) as [->|Nd]; [now left|right; exact Nd]. }
  assert (A : arg_char d = true) by (assert (A := dchar_arg [d] (number_dchars [d] n Nt)); now inversion A).
  assert (M : match_token resubmit_re (sp ++ (T "resubmit(," ++ [d] ++ T ")") ++ sp' ++ tl) = Some ([Some [d]] ++ [Some rest])).
  { apply (token_ok resubmit_re sp _ sp' tl rest [Some [d]] (fun _ => True)); auto; [reflexivity|].
    intros v c k res _ K. unfold resubmit_re. change (T "resubmit(,") with (T "resubmit(" ++ T ","). rewrite <- !app_assoc, run_seq.
    apply (eats_word (T "resubmit(")); [exact I|]. rewrite app_nil_r, run_seq.
    change (run (Opt (W "in_port")) (T "," ++ [d] ++ T ")" ++ v) c (fun s' c' => run (W "," ;; Cap (Cls arg_char) ;; W ")") s' c' k))
      with (run (W "," ;; Cap (Cls arg_char) ;; W ")") (T "," ++ [d] ++ T ")" ++ v) (c ++ []) k).
    rewrite app_nil_r, run_seq. apply (eats_word (T ",")); [exact I|]. rewrite app_nil_r, run_seq.
    apply (eats_cap (Cls arg_char) [d] [] _ (eats_cls arg_char d A)); [exact I|]. apply (eats_word (T ")")); [exact I|]. cbn [app]. rewrite app_nil_r. exact K. }
  rewrite M. rewrite <- app_assoc. miss "resubmit(,". miss "resubmit(,". miss "resubmit(,". miss "resubmit(,". cbn [app group_text nth_error last_group last upd rbind].
  rewrite (read_number [d] n Nt). reflexivity.
Qed.
Lemma piece_plain g w p : piece_text g w p -> all plainc w /\ w <> [].
Proof.
  assert (L : forall s, forallb plainc (T s) = true -> all plainc (T s)) by (intros s H; apply Forall_forall; now apply forallb_forall).
  intros H. destruct H as [s l H| |s l (ls & H & _) N1 N2|s v H|s v s' m H H'|s n H|d n H].
  - now apply (action_plain g s l).
  - split; [now apply L|discriminate].
  - split; [|discriminate]. apply all_app. split; [now apply L|]. apply all_app. split; [|now apply L].
    eapply listed_plain; [|exact H]. intros w' x' Q. now apply (action_plain g w' x').
  - split; [|discriminate]. apply all_app. split; [now apply L|now apply (number_plain s v)].
  - split; [|discriminate]. apply all_app. split; [now apply L|]. apply all_app. split; [now apply (number_plain s v)|].
    apply all_app. split; [now apply L|now apply (number_plain s' m)].
  - split; [|discriminate]. apply all_app. split; [now apply L|now apply (number_plain s n)].
  - split; [|discriminate]. apply all_app. split; [now apply L|]. apply all_app. split; [|now apply L].
    apply vchar_plain. now apply (numeral_vchars 10 [d] n).
Qed.
(** one round of the loop *)
Lemma round_ok g w p : NoDup (map fst g) -> piece_text g w p -> forall sp sp' tl rest i fuel, all re_space sp -> all re_space sp' -> tail_of tl rest ->
  sp ++ w ++ sp' ++ tl <> [] ->
  instructions_loop g (S fuel) (sp ++ w ++ sp' ++ tl) i = (do i' <- upd i p; instructions_loop g fuel rest i').
Proof.
  intros ND H sp sp' tl rest i fuel Sp Sp' Tl NE.
  assert (G : preads g w p -> instructions_loop g (S fuel) (sp ++ w ++ sp' ++ tl) i = (do i' <- upd i p; instructions_loop g fuel rest i')).
  { intros P. specialize (P sp sp' tl rest i Sp Sp' Tl). destruct (sp ++ w ++ sp' ++ tl) as [|y t]; [congruence|].
    cbn [instructions_loop]. rewrite P. destruct (upd i p); reflexivity. }
  destruct H as [s l H| |s l H N1 N2|s v H|s v s' m H H'|s n H|d n H].
  - destruct (action_ok g s l ND H) as [R Q]. specialize (R sp sp' tl rest al_append (apply_actions i) Sp Sp' Tl). specialize (Q sp (sp' ++ tl) i Sp).
    destruct (sp ++ s ++ sp' ++ tl) as [|y t]; [congruence|]. cbn [instructions_loop]. rewrite Q. cbn [rbind]. rewrite R. cbn [upd].
    destruct (rfold al_append l (apply_actions i)); reflexivity.
  - apply G, clear_ok.
  - apply G. now apply write_ok.
  - apply G. now apply metadata_ok.
  - apply G. now apply metadata_mask_ok.
  - apply G. now apply goto_ok.
  - apply G. now apply resubmit_ok.
Qed.
Lemma instructions_loop_ok g s ps : NoDup (map fst g) -> listed (piece_text g) s ps -> forall fuel i, (List.length s <= fuel)%nat ->
  instructions_loop g fuel s i = rfold upd ps i.
Proof.
  intros ND. induction 1 as [a w b x A B Pw|a w b x s l A B Pw Ls IH]; intros fuel i F.
  - destruct (piece_plain g w x Pw) as [_ NE].
    assert (NE' : a ++ w ++ b ++ [] <> []). { intros E. apply app_eq_nil in E as [_ E]. apply app_eq_nil in E as [E _]. congruence. }
    assert (R := fun fuel => round_ok g w x ND Pw a b [] [] i fuel (gap_space a A) (gap_space b B) tail_end NE'). rewrite app_nil_r in R, NE'.
    destruct fuel as [|fuel]; [destruct (a ++ w ++ b); [congruence|cbn in F; lia]|]. rewrite R. cbn [rfold].
    destruct (upd i x); cbn [rbind]; [destruct fuel; reflexivity|reflexivity].
  - assert (Pl : ~ In newline s) by (apply plain_newline; eapply listed_plain; [|exact Ls]; intros w' x' H'; now apply (piece_plain g w' x')).
    change (T "," ++ s) with ("," :: s)%char in *.
    assert (Len : (List.length s < List.length (a ++ w ++ b ++ ("," :: s)%char))%nat) by (rewrite !app_length; cbn [List.length]; lia).
    assert (NE : a ++ w ++ b ++ ("," :: s)%char <> []) by (intros E; rewrite E in Len; cbn in Len; lia).
    destruct fuel as [|fuel]; [lia|]. rewrite (round_ok g w x ND Pw a b _ s i fuel (gap_space a A) (gap_space b B) (tail_comma s Pl) NE). cbn [rfold].
    destruct (upd i x) as [i'|e]; cbn [rbind]; [|reflexivity]. apply IH. lia.
Qed.
Definition start_inst (ps : list piece) (i : instructions) (a w : alist) : instructions :=
  mkInst (last_of (fun p => match p with PGoto t => Some t | _ => None end) ps (goto_table i)) a w
    (last_of (fun p => match p with PMetadata v m => Some (v, m) | _ => None end) ps (write_metadata i)) (clear_actions i || cleared ps) (meter i).
Lemma pieces_fold ps : forall i a w, rfold al_append (applied ps) (apply_actions i) = Ok a ->
  (forall l, In (PWrite l) ps -> exists x, as_of l = Ok x) ->
  match last_of (fun p => match p with PWrite a => Some a | _ => None end) ps None with Some l => as_of l = Ok w | None => w = write_actions i end ->
  rfold upd ps i = Ok (start_inst ps i a w).
Proof.
  induction ps as [|p ps IH]; intros i a w A Hw W.
  - cbn in A, W. injection A as <-. subst w. cbn [rfold]. unfold start_inst. cbn. destruct i as [go ap wr me cl mt]. cbn. now rewrite orb_false_r.
  - cbn [rfold]. unfold applied in A. cbn [flat_map] in A. fold (applied ps) in A. rewrite rfold_app in A.
    assert (Lw : forall o, last_of (fun p => match p with PWrite a => Some a | _ => None end) ps o =
                 match last_of (fun p => match p with PWrite a => Some a | _ => None end) ps None with Some y => Some y | None => o end).
    { unfold last_of. clear. induction ps as [|q ps IH]; intros o; cbn [fold_left]; [reflexivity|].
      destruct q; try apply IH. rewrite IH. symmetry. rewrite IH. destruct (fold_left _ ps None); reflexivity. }
    assert (Hw' : forall l, In (PWrite l) ps -> exists x, as_of l = Ok x) by (intros l Hl; apply Hw; now right).
    destruct p as [l| |l|v m|t]; cbn [upd].
    + destruct (rfold al_append l (apply_actions i)) as [a'|e]; cbn [rbind] in A |- *; [|discriminate]. rewrite (IH _ a w); [reflexivity|exact A|exact Hw'|exact W].
    + cbn [rfold rbind] in A |- *. rewrite (IH _ a w); [|exact A|exact Hw'|exact W]. unfold start_inst. cbn. rewrite orb_true_r. reflexivity.
    + destruct (Hw l (or_introl eq_refl)) as (x & E). rewrite E. cbn [rfold rbind] in A |- *. change (last_of ?f (PWrite l :: ps) None) with (last_of f ps (Some l)) in W. rewrite Lw in W.
      rewrite (IH _ a w); [reflexivity|exact A|exact Hw'|]. cbn [write_actions]. destruct (last_of _ ps None); [exact W|congruence].
    + cbn [rfold rbind] in A |- *. rewrite (IH _ a w); [reflexivity|exact A|exact Hw'|exact W].
    + cbn [rfold rbind] in A |- *. rewrite (IH _ a w); [reflexivity|exact A|exact Hw'|exact W].
Qed.
(** the instructions of a text *)
Definition inst_of (ps : list piece) (a w : alist) : instructions := mkInst (goto_of ps) a w (metadata_of ps) (cleared ps) None.
Lemma instructions_read g s ps a w : NoDup (map fst g) -> pieces_text g (map lower s) ps -> al_of (applied ps) = Ok a ->
  (forall l, In (PWrite l) ps -> exists x, as_of l = Ok x) -> match written ps with Some l => as_of l = Ok w | None => w = al_empty end ->
  instructions_from_ovs g s = Ok (inst_of ps a w).
Proof.
  intros ND H A Hw W. unfold instructions_from_ovs. destruct H as [[E ->]|H].
  - cbn in A, W. injection A as <-. subst w. rewrite E. destruct (List.length s); reflexivity.
  - rewrite (instructions_loop_ok g _ ps ND H) by (now rewrite map_length). now rewrite (pieces_fold ps inst_empty a w A Hw W).
Qed.
