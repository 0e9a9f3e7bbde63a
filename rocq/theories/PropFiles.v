(** C97: the decorator [as_file_handle] (/repo/ofequivalence/utils.py:92-192). *)
From Verif Require Import Base Files SpecFiles.
Open Scope nat_scope.
Local Arguments Nat.ltb : simpl never.

Section Proofs.
Context (chunk : nat).

(** The handle looks like the ideal file. *)
Definition rep (f : fobj) (text rd wr : bool) (i o : data) : Prop :=
  let s := under f in
  s_closed s = false /\ s_rd s = rd /\ s_wr s = wr /\
  match f with
  | FS s => s_text s = text /\ s_in s = i /\ s_out s = o
  | FW w => text = true /\ w_in w ++ s_in (w_s w) = i /\ s_out (w_s w) ++ w_out w = o
  end.

(** Which stream is below, and how it is wrapped, does not change. *)
Definition same (f f' : fobj) : Prop :=
  s_text (under f') = s_text (under f) /\
  match f, f' with FS _, FS _ => True | FW _, FW _ => True | _, _ => False end.

Lemma same_refl f : same f f.
Proof. split; [reflexivity|]. destruct f; exact I. Qed.

Lemma same_trans f g h : same f g -> same g h -> same f h.
Proof.
  intros [E1 H1] [E2 H2]. split; [congruence|]. destruct f, g, h; auto.
Qed.

Lemma write_rep f text rd wr i o b d :
  rep f text rd wr i o ->
  exists r f', f_write chunk b d f = (r, f') /\ same f f' /\
    ((text && b = true /\ r = Some EType /\ rep f' text rd wr i o) \/
     (text && b = false /\ wr = false /\ r = Some EValue /\ rep f' text rd wr i o) \/
     (text && b = false /\ wr = true /\ negb text && negb b = true /\ r = Some EType /\ rep f' text rd wr i o) \/
     (text && b = false /\ wr = true /\ negb text && negb b = false /\ r = None /\ rep f' text rd wr i (o ++ d))).
Proof.
  destruct f as [s|w]; unfold rep, same; cbn [under f_write].
  - destruct s as [t r w c si so]; cbn. intros (-> & -> & -> & -> & -> & ->).
    unfold st_write; cbn. destruct text, b, wr; cbn; do 2 eexists; (split; [reflexivity|]);
      cbn; intuition congruence.
  - destruct w as [wi wo [t r w c si so]]; cbn. intros (-> & -> & -> & -> & <- & <-).
    unfold w_write; cbn. destruct b; cbn; [do 2 eexists; split; [reflexivity|]; cbn; intuition congruence|].
    destruct wr; cbn; [|do 2 eexists; split; [reflexivity|]; cbn; intuition congruence].
    destruct (chunk <=? List.length (wo ++ d)); do 2 eexists; (split; [reflexivity|]); cbn;
      (split; [auto|]); right; right; right; rewrite ?app_nil_r, ?app_assoc; intuition congruence.
Qed.

Lemma read_rep f text rd wr i o n :
  rep f text rd wr i o ->
  exists r f', f_read chunk n f = (r, f') /\ same f f' /\
    if rd then r = RData text (firstn n i) /\ rep f' text rd wr (skipn n i) o
    else r = RErr EValue /\ rep f' text rd wr i o.
Proof.
  destruct f as [s|w]; unfold rep, same; cbn [under f_read].
  - destruct s as [t r w c si so]; cbn. intros (-> & -> & -> & -> & -> & ->).
    unfold st_read; cbn. destruct rd; cbn; do 2 eexists; (split; [reflexivity|]); cbn; intuition congruence.
  - destruct w as [wi wo [t r w c si so]]; cbn. intros (-> & -> & -> & -> & <- & <-).
    unfold w_read; cbn. destruct rd; cbn; [|do 2 eexists; split; [reflexivity|]; cbn; intuition congruence].
    set (m := if List.length wi <? n then Nat.max chunk (n - List.length wi) else 0).
    assert (Hm : n <= List.length (wi ++ firstn m si) \/ firstn m si = si).
    { rewrite app_length, firstn_length. subst m. destruct (Nat.ltb_spec (List.length wi) n); [|left; lia].
      destruct (Nat.le_gt_cases (List.length si) (Nat.max chunk (n - List.length wi))).
      - right. now apply firstn_all2.
      - left. lia. }
    clearbody m.
    do 2 eexists. split; [reflexivity|]. cbn.
    assert (E : wi ++ si = (wi ++ firstn m si) ++ skipn m si)
      by now rewrite <- app_assoc, firstn_skipn.
    split; [auto|]. rewrite E.
    destruct Hm as [Hm|Hm].
    + rewrite (firstn_app n (_ ++ _)), (skipn_app n (_ ++ _)).
      replace (n - List.length (wi ++ firstn m si)) with 0 by lia. cbn [firstn skipn]. rewrite !app_nil_r.
      intuition congruence.
    + assert (Z : skipn m si = []).
      { pose proof (firstn_skipn m si) as X. rewrite Hm in X.
        rewrite <- (app_nil_r si) in X at 3. now apply app_inv_head in X. }
      rewrite Z, !app_nil_r. intuition congruence.
Qed.

Lemma run_rep p : forall f text rd wr i o,
  keeps_open p -> rep f text rd wr i o ->
  exists f', run chunk p f = (fst (ideal text rd wr p i o), f') /\ same f f' /\
    rep f' text rd wr (fst (snd (ideal text rd wr p i o))) (snd (snd (ideal text rd wr p i o))).
Proof.
  induction p as [r|e|b d k IH|n k IH|k IH]; intros f text rd wr i o K R; cbn [run ideal].
  - exists f. auto using same_refl.
  - exists f. auto using same_refl.
  - destruct (write_rep _ _ _ _ _ _ b d R) as (r & f' & E & S & C). rewrite E.
    cbn in K.
    destruct C as [(-> & -> & R')|[(-> & -> & -> & R')|[(-> & -> & -> & -> & R')|(-> & -> & -> & -> & R')]]];
      cbn [negb]; (match goal with |- exists _, run _ (k ?x) _ = _ /\ _ =>
         destruct (IH x _ _ _ _ _ _ (K x) R') as (f2 & E2 & S2 & R2) end; exists f2; eauto using same_trans).
  - destruct (read_rep _ _ _ _ _ _ n R) as (r & f' & E & S & C). rewrite E. cbn in K.
    destruct rd; destruct C as [-> R'];
      (match goal with |- exists _, run _ (k ?x) _ = _ /\ _ =>
         destruct (IH x _ _ _ _ _ _ (K x) R') as (f2 & E2 & S2 & R2) end; exists f2; eauto using same_trans).
  - destruct K.
Qed.

Lemma nth_set_nth v l : forall i j, i < List.length l ->
  nth_error (set_nth i v l) j = if j =? i then Some v else nth_error l j.
Proof.
  induction l as [|x l IH]; intros i j H; [cbn in H; lia|].
  destruct i, j; cbn; auto. apply IH. cbn in H. lia.
Qed.

Lemma length_set_nth v l : forall i, List.length (set_nth i v l) = List.length l.
Proof. induction l; destruct i; cbn; auto. Qed.

Lemma kget_kset kw n v m : kget (kset kw n v) m = if String.eqb m n then Some v else kget kw m.
Proof.
  induction kw as [|[a w] kw IH]; cbn.
  - reflexivity.
  - destruct (String.eqb_spec n a) as [->|N]; cbn.
    + destruct (String.eqb m a); reflexivity.
    + rewrite IH. destruct (String.eqb_spec m a) as [->|]; [|reflexivity].
      destruct (String.eqb_spec a n); congruence.
Qed.

Lemma locate_spec arg args kw v :
  file_arg arg args kw v ->
  exists sl, locate arg args kw = inr (sl, v) /\
    handed arg args kw (fst (update sl args kw)) (snd (update sl args kw)).
Proof.
  destruct arg as [[name i]|]; cbn.
  - intros [H|[H H2]].
    + rewrite H. exists (Pos i). split; [reflexivity|]. cbn.
      assert (L : i < List.length args) by (apply nth_error_Some; congruence).
      split; [|lia]. intros _. rewrite length_set_nth. auto using nth_set_nth.
    + pose proof H as H'. apply nth_error_None in H'. rewrite H', H2.
      exists (Kw name). split; [reflexivity|]. cbn. split; [lia|]. intros _.
      split; [reflexivity|]. intros m. apply kget_kset.
  - destruct args as [|a args]; [discriminate|]. intros [= ->]. exists (Pos 0). split; [reflexivity|].
    cbn. split; [reflexivity|]. split; [reflexivity|]. intros [|j]; reflexivity.
Qed.

Lemma ends_with_spec suf f : ends_with suf f = true <-> exists pre, f = (pre ++ suf)%string.
Proof.
  induction f as [|a f IH]; cbn [ends_with]; rewrite orb_true_iff, String.eqb_eq.
  - split.
    + intros [->|X]; [exists EmptyString; reflexivity|discriminate].
    + intros [[|? ?] E]; [auto|discriminate].
  - rewrite IH. split.
    + intros [->|[pre ->]]; [exists EmptyString|exists (String a pre)]; reflexivity.
    + intros [[|b pre] E]; [left; symmetry; exact E|]. cbn in E. injection E as -> ->. right. eauto.
Qed.

Lemma codec_spec compression f : compressed_as compression f (codec_of compression f).
Proof.
  unfold codec_of. destruct compression; cbn; [|auto].
  destruct (ends_with ".gz" f) eqn:G; [cbn; split; [auto|]; now apply ends_with_spec|].
  destruct (ends_with ".bz2" f) eqn:B; [cbn; split; [auto|]; now apply ends_with_spec|].
  cbn. right. rewrite <- !ends_with_spec, G, B. split; discriminate.
Qed.

Lemma gz_not_bz2 pre : forall pre', (pre ++ ".gz" <> pre' ++ ".bz2")%string.
Proof.
  induction pre as [|a pre IH]; intros pre' E.
  - destruct pre' as [|? [|? [|? [|? ?]]]]; discriminate E.
  - destruct pre' as [|b pre'].
    + destruct pre as [|? [|? [|? [|? ?]]]]; discriminate E.
    + cbn in E. injection E as _ E. eapply IH; eassumption.
Qed.

Lemma compressed_unique comp f c c' : compressed_as comp f c -> compressed_as comp f c' -> c = c'.
Proof.
  assert (X : ~ ((exists pre, f = (pre ++ ".gz")%string) /\ exists pre, f = (pre ++ ".bz2")%string)).
  { intros [[p ->] [p' E]]. eapply gz_not_bz2; eassumption. }
  destruct c, c'; cbn; intuition congruence.
Qed.

(** Closing always closes. *)
Lemma close_closed f : s_closed (under (f_close f)) = true.
Proof.
  destruct f as [s|w]; cbn; [reflexivity|]. unfold w_close.
  destruct (s_closed (w_s w)) eqn:E; cbn; auto.
Qed.

Lemma close_rep f text rd wr i o : rep f text rd wr i o -> s_out (under (f_close f)) = o.
Proof.
  destruct f as [s|w]; unfold rep; cbn [under f_close].
  - intros (_ & _ & _ & _ & _ & E). exact E.
  - intros (C & _ & _ & _ & _ & E). unfold w_close. rewrite C. exact E.
Qed.
End Proofs.

Lemma mode_r w b : has_ch "r" (mode_of w b) = negb w.
Proof. destruct w, b; reflexivity. Qed.
Lemma mode_w w b : has_ch "w" (mode_of w b) = w.
Proof. destruct w, b; reflexivity. Qed.
Lemma mode_b w b : has_ch "b" (mode_of w b) = b.
Proof. destruct w, b; reflexivity. Qed.

(** An open file object handed over is passed on, as a text file if text is asked for; the
    function runs as on a plain file of that kind, its result or exception is the result,
    the object is still open and has got all that was written and nothing else.  What is
    left to read is what the function left if the kind was right, else a part of it. *)
Theorem C97_handle : forall chunk enc dec (writing binary : bool) compression arg func args kw s d,
  file_arg arg args kw VFile ->
  s_closed s = false -> (if writing then s_wr s else s_rd s) = true ->
  (s_text s && binary = false) ->
  exists args' kw', handed arg args kw args' kw' /\
    (keeps_open (func args' kw') ->
     exists o i' out' s',
       ideal (negb binary) (s_rd s) (s_wr s) (func args' kw') (s_in s) (s_out s) = (o, (i', out')) /\
       as_file_handle chunk enc dec (mode_of writing binary) compression arg func args kw s d
         = (o, After s' d None) /\
       s_closed s' = false /\ s_text s' = s_text s /\ s_out s' = out' /\
       (exists ahead, i' = ahead ++ s_in s' /\ (s_text s = negb binary -> ahead = []))).
Proof.
  intros chunk enc dec writing binary compression arg func args kw s d F C W T.
  destruct (locate_spec _ _ _ _ F) as (sl & L & H).
  destruct (update sl args kw) as [args' kw'] eqn:U. cbn [fst snd] in H.
  exists args', kw'. split; [exact H|]. intros K.
  destruct (ideal (negb binary) (s_rd s) (s_wr s) (func args' kw') (s_in s) (s_out s)) as [o [i' out']] eqn:I.
  unfold as_file_handle. rewrite L, U.
  assert (X : exists f, convert (mode_of writing binary) s = inr f /\
            f = if Bool.eqb (s_text s) (negb binary) then FS s else FW (Wrapper [] [] s)).
  { unfold convert. rewrite mode_r, mode_b. unfold st_read, st_write. rewrite C.
    destruct writing; rewrite W; destruct (s_text s), binary; cbn in *; try discriminate; eauto. }
  destruct X as (f & X & Ef). rewrite mode_r, mode_w.
  replace (negb writing || writing) with true by (destruct writing; reflexivity). rewrite X.
  assert (R : rep f (negb binary) (s_rd s) (s_wr s) (s_in s) (s_out s)).
  { subst f. unfold rep. destruct (Bool.eqb_spec (s_text s) (negb binary)); cbn; rewrite ?app_nil_r; [auto 10|].
    destruct (s_text s), binary; cbn in *; try discriminate; try congruence; auto 10. }
  destruct (run_rep chunk _ _ _ _ _ _ _ K R) as (f' & E & S & R'). rewrite I in E, R'. cbn [fst snd] in E, R'.
  rewrite E. subst f. destruct S as [S1 S2].
  destruct (Bool.eqb_spec (s_text s) (negb binary)) as [Q|Q]; destruct f' as [s'|w]; try destruct S2.
  - destruct R' as (A & B & D & G & M & N). exists o, i', out', s'. cbn in *.
    repeat (split; [auto; try congruence|]). exists []. auto.
  - destruct R' as (A & B & D & G & M & N). unfold w_detach. cbn [under] in A, S1. rewrite A.
    exists o, i', out', (w_s (w_flush w)). cbn in *.
    repeat (split; [auto; try congruence|]). exists (w_in w). split; [auto|contradiction].
Qed.

(** A text file where bytes are asked for is refused before the function runs, and so is an
    object that is closed or lacks the direction; nothing happens to the object. *)
Theorem C97_refused : forall chunk enc dec (writing binary : bool) compression arg func args kw s d,
  file_arg arg args kw VFile ->
  (s_closed s || negb (if writing then s_wr s else s_rd s) || s_text s && binary = true) ->
  exists e, as_file_handle chunk enc dec (mode_of writing binary) compression arg func args kw s d
    = (Raised e, After s d None) /\
    (s_closed s = false -> (if writing then s_wr s else s_rd s) = true -> e = ENotImplemented).
Proof.
  intros chunk enc dec writing binary compression arg func args kw s d F T.
  destruct (locate_spec _ _ _ _ F) as (sl & L & _).
  unfold as_file_handle. rewrite L. destruct (update sl args kw) as [args' kw'].
  rewrite mode_r, mode_w. unfold convert. rewrite mode_r, mode_b. unfold st_read, st_write.
  destruct s as [t r w c si so]; cbn in *.
  destruct writing, binary, t, r, w, c; cbn in *; try discriminate;
    eexists; (split; [reflexivity|]); congruence.
Qed.

(** A path is opened, decompressed or compressed by its ending; the function runs as on a
    plain file with the content; afterwards a file read is as it was, a file written holds
    exactly what was written, and no other file is touched. *)
Theorem C97_path : forall chunk enc dec (writing binary : bool) compression arg func args kw s d f c x,
  file_arg arg args kw (VPath f) -> compressed_as compression f c ->
  (writing = false -> exists raw, lookup d f = Some raw /\ dec c raw = Some x) ->
  (writing = true -> x = []) ->
  exists args' kw', handed arg args kw args' kw' /\
    (keeps_open (func args' kw') ->
     exists o i' out' d' h,
       ideal (negb binary) (negb writing) writing (func args' kw') x [] = (o, (i', out')) /\
       as_file_handle chunk enc dec (mode_of writing binary) compression arg func args kw s d
         = (o, After s d' (Some h)) /\
       (forall g, lookup d' g = if writing && String.eqb g f then Some (enc c out') else lookup d g)).
Proof.
  intros chunk enc dec writing binary compression arg func args kw s d f c x F Cc Hr Hw.
  destruct (locate_spec _ _ _ _ F) as (sl & L & H).
  destruct (update sl args kw) as [args' kw'] eqn:U. cbn [fst snd] in H.
  exists args', kw'. split; [exact H|]. intros K.
  destruct (ideal (negb binary) (negb writing) writing (func args' kw') x []) as [o [i' out']] eqn:I.
  unfold as_file_handle. rewrite L, U.
  pose proof (compressed_unique _ _ _ _ Cc (codec_spec compression f)) as Q.
  set (h0 := if binary then FS (Stream false (negb writing) writing false x [])
             else FW (Wrapper [] [] (Stream false (negb writing) writing false x []))).
  assert (O : open_path dec compression f (mode_of writing binary) d
              = (inr h0, if writing then store d f [] else d)).
  { unfold open_path. rewrite mode_r, mode_w, mode_b.
    rewrite <- Q.
    destruct writing; cbn [negb].
    - subst h0. rewrite (Hw eq_refl). reflexivity.
    - destruct (Hr eq_refl) as (raw & -> & ->). reflexivity. }
  rewrite O.
  assert (R : rep h0 (negb binary) (negb writing) writing x []).
  { subst h0. unfold rep. destruct binary; cbn; auto 10. }
  destruct (run_rep chunk _ _ _ _ _ _ _ K R) as (h & E & _ & R'). rewrite I in E, R'. cbn [fst snd] in E, R'.
  rewrite E. unfold leave_path. rewrite mode_r, (close_rep _ _ _ _ _ _ R').
  rewrite <- Q.
  exists o, i', out'. do 2 eexists. split; [reflexivity|]. split; [reflexivity|].
  intros g. destruct writing; cbn; [|reflexivity].
  destruct (String.eqb g f); reflexivity.
Qed.

(** Whatever the function does, a file opened here is closed in the end. *)
Theorem C97_closed : forall chunk enc dec mode compression arg func args kw s d o s' d' h,
  as_file_handle chunk enc dec mode compression arg func args kw s d = (o, After s' d' (Some h)) ->
  s_closed (under h) = true.
Proof.
  intros chunk enc dec mode compression arg func args kw s d o s' d' h. unfold as_file_handle.
  destruct (locate arg args kw) as [e|[sl v]]; [discriminate|].
  destruct (update sl args kw) as [args' kw']. destruct v as [f| |z]; [| |discriminate].
  - destruct (open_path dec compression f mode d) as [[e|h0] d0]; [discriminate|].
    destruct (run chunk (func args' kw') h0) as [o1 h1]. unfold leave_path.
    intros X. injection X as _ _ _ <-. apply close_closed.
  - destruct (_ || _); [|discriminate]. destruct (convert mode s) as [e|h0]; [discriminate|].
    destruct (run chunk (func args' kw') h0) as [o1 [s1|w]]; [discriminate|].
    destruct (w_detach w) as [[e|] s2]; discriminate.
Qed.

(** What one function writes to a path another reads from it, compressed or not, text or
    binary, provided that decompression undoes compression. *)
Theorem C97_round_trip : forall chunk enc dec binary compression writer reader s d f,
  (forall c x, dec c (enc c x) = Some x) ->
  keeps_open writer -> keeps_open reader ->
  exists o1 o2 i1 i2 written out d' h1 h2,
    ideal (negb binary) false true writer [] [] = (o1, (i1, written)) /\
    ideal (negb binary) true false reader written [] = (o2, (i2, out)) /\
    as_file_handle chunk enc dec (mode_of true binary) compression None (fun _ _ => writer) [VPath f] [] s d
      = (o1, After s d' (Some h1)) /\
    exists d'',
    as_file_handle chunk enc dec (mode_of false binary) compression None (fun _ _ => reader) [VPath f] [] s d'
      = (o2, After s d'' (Some h2)) /\ forall g, lookup d'' g = lookup d' g.
Proof.
  intros chunk enc dec binary compression writer reader s d f Hdec K1 K2.
  pose proof (codec_spec compression f) as Cc.
  destruct (C97_path chunk enc dec true binary compression None (fun _ _ => writer) [VPath f] [] s d f
              _ [] eq_refl Cc ltac:(discriminate) ltac:(reflexivity)) as (a1 & k1 & _ & P1).
  destruct (P1 K1) as (o1 & i1 & written & d' & h1 & I1 & E1 & D1).
  assert (X : lookup d' f = Some (enc (codec_of compression f) written))
    by (rewrite D1, String.eqb_refl; reflexivity).
  destruct (C97_path chunk enc dec false binary compression None (fun _ _ => reader) [VPath f] [] s d' f
              _ written eq_refl Cc ltac:(eauto) ltac:(discriminate)) as (a2 & k2 & _ & P2).
  destruct (P2 K2) as (o2 & i2 & out & d'' & h2 & I2 & E2 & D2).
  exists o1, o2, i1, i2, written, out, d', h1, h2. cbn [negb] in I1, I2. repeat (split; [assumption|]).
  exists d''. split; [assumption|]. intros g. rewrite D2. reflexivity.
Qed.

(** ** What does not hold *)

Definition bytes_io (i : data) : stream := Stream false true true false i [].
Definition id_enc (c : codec) (x : data) : data := x.
Definition id_dec (c : codec) (x : data) : option data := Some x.
Definition chars (s : string) : data := list_ascii_of_string s.

(** A function that closes the handle it was given returns normally on a plain file and on a
    path; on a binary object opened as text the call raises ValueError. *)
Theorem C97_close_refuted : exists chunk p s,
  s_closed s = false /\ s_wr s = true /\
  fst (ideal true true true p (s_in s) (s_out s)) = Returned 1 /\
  fst (as_file_handle chunk id_enc id_dec "w" true None (fun _ _ => p) [VFile] [] s []) = Raised EValue /\
  fst (as_file_handle chunk id_enc id_dec "w" true None (fun _ _ => p) [VPath "f"] [] s []) = Returned 1.
Proof.
  exists 100, (PWrite false (chars "flow") (fun _ => PClose (PRet 1))), (bytes_io []).
  repeat split.
Qed.

(** A function that reads one line of a binary object opened as text takes the following
    lines with it: the caller finds nothing left. *)
Theorem C97_position_refuted : exists chunk p s,
  keeps_open p /\ s_closed s = false /\ s_rd s = true /\
  fst (snd (ideal true true true p (s_in s) (s_out s))) = chars "bc" /\
  s_in (a_stream (snd (as_file_handle chunk id_enc id_dec "r" true None (fun _ _ => p) [VFile] [] s []))) = [].
Proof.
  exists 10, (PRead 1 (fun _ => PRet 0)), (bytes_io (chars "abc")).
  repeat split.
Qed.

(** Without [arg] (ruleset_from_fib, ruleset_from_ovs, ruleset_from_pickle,
    ruleset_from_ryu_json) the file cannot be passed by its name. *)
Theorem C97_keyword_refuted : forall chunk enc dec mode compression func kw s d,
  as_file_handle chunk enc dec mode compression None func [] kw s d = (Raised EIndex, After s d None).
Proof. reflexivity. Qed.

(** ** Examples *)

(** A writer that writes twice and stops at an error, with a binary object, text asked for,
    given by name as ruleset_to_ovs is (convert_ovs.py:753). *)
Definition ex_writer : prog :=
  PWrite false (chars "priority=1") (fun r =>
    match r with
    | None => PWrite false (chars ",drop") (fun _ => PRaise (EUser 7))
    | Some e => PRaise e
    end).

Example C97_ex_hyps :
  file_arg (Some ("file", 1)%string) [VOther 5] [("file"%string, VFile)] VFile /\
  s_closed (bytes_io []) = false /\ s_wr (bytes_io []) = true /\
  s_text (bytes_io []) && false = false /\ keeps_open ex_writer.
Proof.
  repeat split; cbn; auto. intros [e|]; cbn; auto.
Qed.

Example C97_ex_run :
  as_file_handle 100 id_enc id_dec "w" true (Some ("file", 1)%string) (fun _ _ => ex_writer)
    [VOther 5] [("file"%string, VFile)] (bytes_io []) []
  = (Raised (EUser 7), After (Stream false true true false [] (chars "priority=1,drop")) [] None).
Proof. vm_compute. reflexivity. Qed.

Example C97_ex_path :
  compressed_as true "flows.gz" Gz /\
  (forall c x, id_dec c (id_enc c x) = Some x).
Proof.
  split; [|reflexivity]. split; [reflexivity|]. exists "flows"%string. reflexivity.
Qed.

Print Assumptions C97_handle.
Print Assumptions C97_refused.
Print Assumptions C97_path.
Print Assumptions C97_closed.
Print Assumptions C97_round_trip.
Print Assumptions C97_close_refuted.
Print Assumptions C97_position_refuted.
Print Assumptions C97_keyword_refuted.
