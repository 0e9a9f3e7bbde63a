(** C101: loading with unknown format from paths and file objects
    (/repo/ofequivalence/convert_ruleset.py:51-97, utils.py:92-192). *)
From Verif Require Import Base Files SpecFiles PropFiles FilesAuto SpecFilesAuto.
Open Scope nat_scope.

(** A read-only run writes nothing. *)
Lemma ideal_reads text p : forall i o, snd (snd (ideal text true false p i o)) = o.
Proof.
  induction p as [r|e|b d k IH|n k IH|k IH]; intros i o; cbn [ideal]; auto.
  destruct (text && b); apply IH.
Qed.

Lemma call_handle chunk enc dec binary p contents text d :
  keeps_open p -> text && binary = false ->
  exists i', call chunk enc dec (binary, p) VFile (reader contents text) d =
    (fst (ideal (negb binary) true false p contents []), After (reader i' text) d None).
Proof.
  intros K T. unfold call. cbn [fst snd].
  replace (if binary then "rb"%string else "r"%string) with (mode_of false binary) by (destruct binary; reflexivity).
  destruct (C97_handle chunk enc dec false binary true None (fun _ _ => p) [VFile] [] (reader contents text) d
    eq_refl eq_refl eq_refl T) as (args' & kw' & _ & H).
  destruct (H K) as (o & i' & out' & s' & I & E & C & X & O & _). cbn [s_rd s_wr s_in s_out reader] in I.
  rewrite I. cbn [fst]. rewrite E.
  (* the directions of the object do not change *)
  assert (D : s_rd s' = true /\ s_wr s' = false).
  { clear - E. unfold as_file_handle in E. cbn [locate update set_nth] in E.
    rewrite mode_r, mode_w in E. cbn [negb orb] in E.
    assert (R : forall p f, s_rd (under (snd (run chunk p f))) = s_rd (under f) /\ s_wr (under (snd (run chunk p f))) = s_wr (under f)).
    { clear. induction p as [r|e|b d k IH|n k IH|k IH]; intros f; cbn [run]; auto.
      - assert (Q : s_rd (under (snd (f_write chunk b d f))) = s_rd (under f) /\ s_wr (under (snd (f_write chunk b d f))) = s_wr (under f)).
        { destruct f as [[t r w c si so]|[wi wo [t r w c si so]]]; cbn; unfold st_write, w_write; cbn;
            destruct t, b, w, c; cbn; auto; destruct (chunk <=? _); auto. }
        destruct (f_write chunk b d f) as [x g]. cbn [snd] in Q. destruct (IH x g) as [-> ->]. exact Q.
      - assert (Q : s_rd (under (snd (f_read chunk n f))) = s_rd (under f) /\ s_wr (under (snd (f_read chunk n f))) = s_wr (under f)).
        { destruct f as [[t r w c si so]|[wi wo [t r w c si so]]]; cbn; unfold st_read, w_read; cbn;
            destruct c, r; cbn; auto. }
        destruct (f_read chunk n f) as [x g]. cbn [snd] in Q. destruct (IH x g) as [-> ->]. exact Q.
      - destruct (IH (f_close f)) as [-> ->]. destruct f as [s|w]; cbn; auto.
        unfold w_close. destruct (s_closed (w_s w)); auto. }
    destruct (convert (mode_of false binary) (reader contents text)) as [e|f] eqn:V; [injection E as _ <-; auto|].
    assert (U : under f = reader contents text).
    { unfold convert in V. destruct (has_ch "r" (mode_of false binary)).
      - destruct (fst (st_read 0 (reader contents text))) as [t x|e]; [|discriminate].
        destruct (negb t && _); [injection V as <-; reflexivity|].
        destruct (t && _); [discriminate|injection V as <-; reflexivity].
      - destruct (negb _); destruct (fst (st_write _ [] (reader contents text))) as [[]|]; try discriminate;
          try (injection V as <-; reflexivity). }
    specialize (R p f). rewrite U in R. destruct (run chunk p f) as [o1 [s1|w]]; cbn [snd under] in R.
    - injection E as _ <-. exact R.
    - unfold w_detach in E. destruct (s_closed (w_s w)); injection E as _ <-; exact R. }
  destruct D as [D1 D2]. pose proof (ideal_reads (negb binary) p contents []) as W. rewrite I in W. cbn [snd] in W.
  exists (s_in s'). destruct s' as [t r w c si so]. cbn in *. subst. reflexivity.
Qed.

Lemma call_refused chunk enc dec p contents d :
  exists e, call chunk enc dec (true, p) VFile (reader contents true) d = (Raised e, After (reader contents true) d None).
Proof.
  destruct (C97_refused chunk enc dec false true true None (fun _ _ => p) [VFile] [] (reader contents true) d eq_refl eq_refl)
    as (e & E & _). exists e. exact E.
Qed.

(** A binary file object at its start: the first loader that succeeds on the contents
    decides, whatever the loaders before it read, and however far they read ahead. *)
Theorem C101_binary_handle : forall chunk enc dec ls contents d, well_behaved ls ->
  auto_handle chunk enc dec ls contents (reader contents false) d = first_success ls contents.
Proof.
  intros chunk enc dec ls contents d W. induction W as [|[binary p] ls K W IH]; [reflexivity|].
  cbn [auto_handle first_success snd] in *.
  destruct (call_handle chunk enc dec binary p contents false d K eq_refl) as (i' & E). rewrite E.
  destruct (fst (ideal (negb binary) true false p contents [])); [reflexivity|exact IH].
Qed.

(** A text file object: only the loaders of text can succeed. *)
Theorem C101_text_handle : forall chunk enc dec ls contents d, well_behaved ls ->
  auto_handle chunk enc dec ls contents (reader contents true) d =
  first_success (filter (fun l => negb (fst l)) ls) contents.
Proof.
  intros chunk enc dec ls contents d W. induction W as [|[binary p] ls K W IH]; [reflexivity|].
  cbn [auto_handle filter fst snd] in *. destruct binary; cbn [negb].
  - destruct (call_refused chunk enc dec p contents d) as (e & E). rewrite E. exact IH.
  - destruct (call_handle chunk enc dec false p contents true d K eq_refl) as (i' & E). rewrite E.
    cbn [first_success negb]. destruct (fst (ideal true true false p contents [])); [reflexivity|exact IH].
Qed.

(** A path, compressed or not: the same on the decompressed contents. *)
Theorem C101_path : forall chunk enc dec ls f c raw contents s d, well_behaved ls ->
  compressed_as true f c -> lookup d f = Some raw -> dec c raw = Some contents ->
  auto_path chunk enc dec ls f s d = first_success ls contents.
Proof.
  intros chunk enc dec ls f c raw contents s d W Cc L D. revert d L.
  induction W as [|[binary p] ls K W IH]; intros d L; [reflexivity|].
  cbn [auto_path first_success snd] in *. unfold call. cbn [fst snd].
  replace (if binary then "rb"%string else "r"%string) with (mode_of false binary) by (destruct binary; reflexivity).
  destruct (C97_path chunk enc dec false binary true None (fun _ _ => p) [VPath f] [] s d f c contents
    eq_refl Cc ltac:(eauto) ltac:(discriminate)) as (args' & kw' & _ & H).
  destruct (H K) as (o & i' & out' & d' & h & I & E & X). cbn [negb] in I. rewrite I, E. cbn [fst a_stream a_disk].
  destruct o; [reflexivity|]. apply IH. rewrite X. exact L.
Qed.

(** A text file object and its path do not always load alike: a loader of bytes (routing
    tables, pickles) is never tried. *)
Theorem C101_text_refuted : exists ls contents,
  well_behaved ls /\ first_success ls contents = Returned 1 /\
  auto_handle 10 id_enc id_dec ls contents (reader contents true) [] = Raised EValue.
Proof.
  exists [(true, PRead 3 (fun r => match r with RData false _ => PRet 1 | _ => PRaise EValue end))], (chars "abc").
  repeat split. repeat constructor. cbn. intros [[] ?|?]; exact I.
Qed.

(** A file object that is not at its start: the first loader sees the rest, the next ones
    the whole file. *)
Theorem C101_position_refuted : exists p contents s,
  keeps_open p /\ s_in s = chars "c" /\
  auto_handle 10 id_enc id_dec [(true, p)] contents s [] <>
  auto_handle 10 id_enc id_dec [(true, p); (true, p)] contents s [].
Proof.
  exists (PRead 1 (fun r => match r with RData _ ["a"%char] => PRet 1 | _ => PRaise EValue end)), (chars "abc"), (reader (chars "c") false).
  split; [cbn; intros r; repeat match goal with |- context [match ?x with _ => _ end] => destruct x end; exact I|].
  split; [reflexivity|]. vm_compute. discriminate.
Qed.

(** A loader of text that reads everything and fails, then one of bytes that succeeds. *)
Definition ex_loaders : list loader :=
  [(false, PRead 100 (fun _ => PRaise (EUser 1)));
   (true, PRead 1 (fun r => match r with RData false ["a"%char] => PRet 5 | _ => PRaise (EUser 2) end))].
Example C101_ex : well_behaved ex_loaders /\
  auto_handle 10 id_enc id_dec ex_loaders (chars "abc") (reader (chars "abc") false) [] = Returned 5 /\
  auto_path 10 id_enc id_dec ex_loaders "x.gz" (reader [] true) [("x.gz"%string, chars "abc")] = Returned 5.
Proof.
  split; [|split; vm_compute; reflexivity].
  repeat constructor; cbn; intros r; repeat match goal with |- context [match ?x with _ => _ end] => destruct x end; exact I.
Qed.

Print Assumptions C101_binary_handle.
Print Assumptions C101_text_handle.
Print Assumptions C101_path.
Print Assumptions C101_text_refuted.
Print Assumptions C101_position_refuted.
