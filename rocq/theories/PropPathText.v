(** C98: the report of differing paths (/repo/ofequivalence/check_equivalence.py:184-208). *)
From Verif Require Import Base Text PathText SpecPathText FormatProofs FibTool.
Open Scope nat_scope.

Definition one_line (l : text) : Prop := ~ In nl l.

Lemma lines_one_line a b r : one_line a -> one_line b -> plain r -> Forall one_line (lines_with a b r).
Proof.
  unfold one_line. intros Ha Hb (P1 & P2 & P3 & P4 & P5).
  assert (L : forall s x, ~ In nl (T s) -> ~ In nl x -> ~ In nl (tab :: T s ++ x)).
  { intros s x H1 H2 [H|H]; [discriminate H|]. apply in_app_or in H. tauto. }
  assert (N : forall x y : text, ~ In nl x -> ~ In nl y -> ~ In nl (x ++ y)).
  { intros x y H1 H2 H. apply in_app_or in H. tauto. }
  assert (C : forall s, forallb (fun c => negb (Ascii.eqb c nl)) (T s) = true -> ~ In nl (T s)).
  { intros s H I. rewrite forallb_forall in H. specialize (H _ I). now rewrite Ascii.eqb_refl in H. }
  repeat constructor; apply N; auto; try (apply L; auto); try (apply N; auto); apply C; reflexivity.
Qed.

Lemma rule_str_lines r : rule_str r = join [nl] (lines_with [] [] r).
Proof. unfold rule_str, lines_with. cbn [join app]. repeat rewrite <- ?app_assoc, <- ?app_comm_cons. reflexivity. Qed.

Lemma split_rule r : plain r -> split nl (rule_str r) = lines_with [] [] r.
Proof.
  intros P. rewrite rule_str_lines, join_separated. apply split_separated; [discriminate|].
  apply lines_one_line; auto; intros [].
Qed.

Lemma join_unlines l : l <> [] -> join [nl] l ++ [nl] = unlines l.
Proof.
  induction l as [|x [|y t] IH]; intros N; [congruence|cbn; now rewrite app_nil_r|].
  change (unlines (x :: y :: t)) with ((x ++ [nl]) ++ unlines (y :: t)).
  rewrite <- IH by discriminate. cbn [join]. now rewrite <- !app_assoc.
Qed.

Lemma unlines_app l m : unlines (l ++ m) = unlines l ++ unlines m.
Proof. unfold unlines. apply flat_map_app. Qed.

Lemma split_unlines l rest : Forall one_line l -> split nl (unlines l ++ rest) = l ++ split nl rest.
Proof.
  induction 1 as [|x l H F IH]; [reflexivity|].
  change (unlines (x :: l)) with ((x ++ [nl]) ++ unlines l).
  rewrite <- !app_assoc. cbn [app]. rewrite split_app by exact H. now rewrite IH.
Qed.

Lemma unlines_inj l m : Forall one_line l -> Forall one_line m -> unlines l = unlines m -> l = m.
Proof.
  intros Fl Fm E. assert (X : split nl (unlines l ++ []) = split nl (unlines m ++ [])) by now rewrite E.
  rewrite !split_unlines in X by assumption. now apply app_inv_tail in X.
Qed.

Lemma add_first r : add_rule [] r = unlines (lines_with [] [] r).
Proof. cbn [add_rule app]. rewrite rule_str_lines. apply join_unlines. discriminate. Qed.

Lemma add_next build r : build <> [] -> plain r ->
  add_rule build r = build ++ unlines (lines_with [tab] (tab :: T "--> ") r).
Proof.
  intros N P. unfold add_rule. destruct build as [|c build]; [congruence|].
  rewrite split_rule by exact P. rewrite <- join_unlines by discriminate. rewrite <- app_assoc. reflexivity.
Qed.

Lemma fold_next path : forall build, build <> [] -> Forall plain path ->
  fold_left add_rule path build = build ++ unlines (flat_map (lines_with [tab] (tab :: T "--> ")) path).
Proof.
  induction path as [|r path IH]; intros build N P; [cbn; now rewrite app_nil_r|].
  inversion P as [|? ? Pr Pp]; subst. cbn [fold_left flat_map].
  rewrite add_next, IH, unlines_app, app_assoc; auto.
  destruct build; [congruence|discriminate].
Qed.

Lemma format_path_lines path : Forall plain path -> format_path path = unlines (path_lines path).
Proof.
  intros P. destruct path as [|r path]; [reflexivity|]. inversion P as [|? ? Pr Pp]; subst.
  unfold format_path. cbn [fold_left path_lines]. rewrite add_first, fold_next, unlines_app; auto.
  discriminate.
Qed.

Lemma path_one_line path : Forall plain path -> Forall one_line (path_lines path).
Proof.
  intros P. destruct path as [|r path]; [constructor|]. inversion P as [|? ? Pr Pp]; subst.
  apply Forall_app. split.
  - apply lines_one_line; auto; intros [].
  - clear P Pr. induction Pp; cbn [flat_map]; [constructor|]. apply Forall_app. split; [|assumption].
    apply lines_one_line; auto.
    + intros [X|[]]. discriminate X.
    + intros X. repeat (destruct X as [X|X]; [discriminate X|]). destruct X.
Qed.

Lemma print_path_lines p qs : Forall plain p -> Forall (Forall plain) qs ->
  print_path (p, qs) = unlines (path_lines p ++ [] ::
     flat_map (fun q => map (cons tab) (path_lines q) ++ [[tab]]) qs).
Proof.
  intros P Q. unfold print_path. cbn [fst snd]. rewrite format_path_lines, unlines_app by exact P.
  f_equal. change (unlines ([] :: ?l)) with (nl :: unlines l). cbn [unlines flat_map app]. f_equal.
  induction Q as [|q qs H Q IH]; [reflexivity|]. cbn [flat_map].
  fold (unlines (map (cons tab) (path_lines q) ++ [[tab]])).
  change (flat_map (fun x => x ++ [nl])) with unlines in *.
  rewrite unlines_app, <- IH. f_equal.
  rewrite format_path_lines by exact H.
  pose proof (split_unlines (path_lines q) [] (path_one_line _ H)) as E. rewrite app_nil_r in E. rewrite E.
  cbn [split]. rewrite map_app. apply join_unlines. destruct (map (cons tab) (path_lines q)); discriminate.
Qed.

Lemma report_one_line sbs : plain_report sbs -> Forall one_line (report_lines sbs).
Proof.
  intros H. unfold report_lines. apply Forall_flat_map. rewrite Forall_forall. intros p Hp.
  destruct (H p Hp) as [P Q]. apply Forall_app. split; [now apply path_one_line|].
  constructor; [intros []|]. apply Forall_flat_map. eapply Forall_impl; [|exact Q].
  intros q Hq. apply Forall_app. split.
  - apply Forall_map. eapply Forall_impl; [|exact (path_one_line _ Hq)].
    intros l Hl [X|X]; [discriminate X|contradiction].
  - repeat constructor. intros [X|[]]. discriminate X.
Qed.

(** The report printed for -D has exactly these lines: per path its rules, each of six
    lines, every rule but the first introduced by one arrow at its match. *)
Theorem C98_lines : forall sbs, plain_report sbs -> print_report sbs = unlines (report_lines sbs).
Proof.
  induction sbs as [|[p qs] sbs IH]; intros H; [reflexivity|].
  destruct (H _ (or_introl eq_refl)) as [P Q]. cbn [fst snd] in P, Q.
  unfold print_report, report_lines in *. cbn [flat_map fst snd].
  rewrite print_path_lines by assumption. symmetry.
  etransitivity; [apply unlines_app|]. f_equal. symmetry. apply IH. intros x Hx. apply H. now right.
Qed.

Lemma lw_inj a b r r' X Y : lines_with a b r ++ X = lines_with a b r' ++ Y -> r = r' /\ X = Y.
Proof.
  unfold lines_with. cbn [app]. intros E.
  injection E as E1 E2 E3 E4 E5 EX.
  repeat match goal with H : a ++ _ = a ++ _ |- _ => apply app_inv_head in H | H : b ++ _ = b ++ _ |- _ => apply app_inv_head in H end.
  injection E1 as E1. injection E2 as E2. injection E3 as E3. injection E4 as E4. injection E5 as E5.
  apply app_inv_tail in E5. split; [|exact EX]. destruct r, r'; cbn in *. congruence.
Qed.

Lemma path_lines_inj p q : path_lines p = path_lines q -> p = q.
Proof.
  destruct p as [|r p], q as [|s q]; try reflexivity; try discriminate.
  cbn [path_lines]. intros E. apply lw_inj in E. destruct E as [-> E]. f_equal.
  revert q E. induction p as [|x p IH]; intros [|y q] E; try reflexivity; try discriminate.
  cbn [flat_map] in E. apply lw_inj in E. destruct E as [-> E]. f_equal. auto.
Qed.

Lemma no_empty_line p : ~ In [] (path_lines p).
Proof.
  destruct p as [|r p]; [intros []|]. cbn [path_lines]. intros H. apply in_app_or in H. destruct H as [H|H].
  - cbn in H. repeat (destruct H as [H|H]; [discriminate H|]). destruct H.
  - apply in_flat_map in H. destruct H as (x & _ & H).
    cbn in H. repeat (destruct H as [H|H]; [discriminate H|]). destruct H.
Qed.

Lemma no_tab_line p : ~ In [tab] (map (cons tab) (path_lines p)).
Proof.
  intros H. apply in_map_iff in H. destruct H as (l & E & H). injection E as ->. now apply no_empty_line in H.
Qed.

Definition no_margin (l : list text) : Prop := match l with (c :: _) :: _ => c <> tab | _ => True end.

Lemma map_tab_inj l m : map (cons tab) l = map (cons tab) m -> l = m.
Proof.
  revert m. induction l as [|x l IH]; intros [|y m] E; try reflexivity; try discriminate.
  injection E as -> E. f_equal. auto.
Qed.

Lemma inner_inj qs : forall qs' R R', no_margin R -> no_margin R' ->
  flat_map (fun q => map (cons tab) (path_lines q) ++ [[tab]]) qs ++ R =
  flat_map (fun q => map (cons tab) (path_lines q) ++ [[tab]]) qs' ++ R' -> qs = qs' /\ R = R'.
Proof.
  assert (S : forall q X, exists l t, (map (cons tab) (path_lines q) ++ [[tab]]) ++ X = (tab :: l) :: t).
  { intros q X. destruct (path_lines q) as [|l ls]; cbn; eauto. }
  induction qs as [|q qs IH]; intros [|q' qs'] R R' N N' E; cbn [flat_map app] in E.
  - auto.
  - destruct (S q' (flat_map (fun q => map (cons tab) (path_lines q) ++ [[tab]]) qs' ++ R')) as (l & t & X).
    rewrite <- app_assoc in E. rewrite X in E. subst R. cbn in N. congruence.
  - destruct (S q (flat_map (fun q => map (cons tab) (path_lines q) ++ [[tab]]) qs ++ R)) as (l & t & X).
    rewrite <- app_assoc in E. rewrite X in E. subst R'. cbn in N'. congruence.
  - rewrite <- !app_assoc in E. cbn [app] in E.
    pose proof (split_first _ _ _ _ _ E (no_tab_line _) (no_tab_line _)) as H.
    rewrite H in E. apply app_inv_head in E. injection E as E.
    apply map_tab_inj, path_lines_inj in H. subst q'.
    destruct (IH _ _ _ N N' E) as [-> ->]. auto.
Qed.

Lemma report_no_margin sbs : no_margin (report_lines sbs).
Proof.
  destruct sbs as [|[[|r p] qs] sbs]; cbn; auto. discriminate.
Qed.

Lemma report_inj sbs : forall sbs', report_lines sbs = report_lines sbs' -> sbs = sbs'.
Proof.
  induction sbs as [|[p qs] sbs IH]; intros [|[p' qs'] sbs'] E; try reflexivity.
  - exfalso. unfold report_lines in E. cbn [flat_map fst snd] in E. destruct (path_lines p'); discriminate.
  - exfalso. unfold report_lines in E. cbn [flat_map fst snd] in E. destruct (path_lines p); discriminate.
  - change (report_lines ((p, qs) :: sbs)) with ((path_lines p ++ [] ::
      flat_map (fun q => map (cons tab) (path_lines q) ++ [[tab]]) qs) ++ report_lines sbs) in E.
    change (report_lines ((p', qs') :: sbs')) with ((path_lines p' ++ [] ::
      flat_map (fun q => map (cons tab) (path_lines q) ++ [[tab]]) qs') ++ report_lines sbs') in E.
    rewrite <- !app_assoc in E. cbn [app] in E.
    pose proof (split_first _ _ _ _ _ E (no_empty_line _) (no_empty_line _)) as H.
    rewrite H in E. apply app_inv_head in E. injection E as E.
    apply path_lines_inj in H. subst p'.
    destruct (inner_inj _ _ _ _ (report_no_margin _) (report_no_margin _) E) as [-> E'].
    f_equal. auto.
Qed.

(** The report can be read in one way only: two reports that print alike relate the same
    paths to the same paths, with the same rules in the same order. *)
Theorem C98_unambiguous : forall sbs sbs', plain_report sbs -> plain_report sbs' ->
  print_report sbs = print_report sbs' -> sbs = sbs'.
Proof.
  intros sbs sbs' H H' E. rewrite !C98_lines in E by assumption.
  apply report_inj, unlines_inj; auto using report_one_line.
Qed.

(** Also of a single path. *)
Theorem C98_path : forall p q, Forall plain p -> Forall plain q ->
  format_path p = format_path q -> p = q.
Proof.
  intros p q P Q E. rewrite !format_path_lines in E by assumption.
  apply path_lines_inj, unlines_inj; auto using path_one_line.
Qed.

(** Without the assumption that the parts of a rule are on one line each, the arrow is lost
    when their number is odd. *)
Theorem C98_odd_lines_refuted : exists r s,
  plain r /\ ~ plain s /\ contains (T "-->") (format_path [r; s]) = false.
Proof.
  exists (Shown (T "1") (T "0") (T "{}") (T "[]") (T "0")),
         (Shown (T "1") (T "a" ++ nl :: T "b") (T "{}") (T "[]") (T "0")).
  split; [|split].
  - repeat split; cbn; intros H; repeat (destruct H as [H|H]; [discriminate H|]); destruct H.
  - intros (_ & H & _). apply H. cbn. auto.
  - vm_compute. reflexivity.
Qed.

Definition ex_a := Shown (T "10") (T "None") (T "{IN_PORT: 1}") (T "Instructions(goto_table=1)") (T "0").
Definition ex_b := Shown (T "5") (T "7") (T "{}") (T "Instructions(apply_actions=[('OUTPUT', 1)])") (T "1").

Example C98_ex : plain_report [([ex_a; ex_b], [[ex_a]; [ex_b; ex_a]]); ([ex_b], [])] /\
  List.length (report_lines [([ex_a; ex_b], [[ex_a]; [ex_b; ex_a]]); ([ex_b], [])]) = 40.
Proof.
  assert (A : plain ex_a) by (repeat split; cbn; intros H; repeat (destruct H as [H|H]; [discriminate H|]); destruct H).
  assert (B : plain ex_b) by (repeat split; cbn; intros H; repeat (destruct H as [H|H]; [discriminate H|]); destruct H).
  split; [|reflexivity]. intros p [<-|[<-|[]]]; cbn [fst snd]; auto 10.
Qed.

Print Assumptions C98_lines.
Print Assumptions C98_unambiguous.
Print Assumptions C98_path.
Print Assumptions C98_odd_lines_refuted.
