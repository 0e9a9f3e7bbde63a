(** C100: the text of a rule (/repo/ofequivalence/rule.py:305-309, 822-823, 935-950). *)
From Verif Require Import Base Text Format SpecText FormatProofs FibTool MatchText SpecMatchText PathText SpecPathText PropPathText PropMatchText RuleText SpecRuleText.
Open Scope Z_scope.

(** Characters that end a number or None. *)
Definition stopc (c : ascii) : bool := existsb (Ascii.eqb c) [","; ")"; "]"]%char.
Definition stops (X : text) : Prop := match X with c :: _ => stopc c = true | [] => False end.
Definition atom (t : text) : Prop := Forall (fun c => stopc c = false /\ c <> "("%char /\ c <> "N"%char /\ c <> newline) t /\ t <> [].

Lemma stop_inj (a b X Y : text) : Forall (fun c => stopc c = false) a -> Forall (fun c => stopc c = false) b ->
  stops X -> stops Y -> a ++ X = b ++ Y -> a = b /\ X = Y.
Proof.
  revert b. induction a as [|c a IH]; intros [|d b] Fa Fb SX SY E; cbn [app] in E.
  - auto.
  - exfalso. subst X. inversion Fb as [|? ? Hd _]; subst. unfold stops in SX. cbn [app] in SX. rewrite Hd in SX. discriminate SX.
  - exfalso. subst Y. inversion Fa as [|? ? Hd _]; subst. unfold stops in SY. cbn [app] in SY. rewrite Hd in SY. discriminate SY.
  - injection E as -> E. inversion Fa; inversion Fb; subst.
    destruct (IH b) as [-> ->]; auto.
Qed.

Lemma num_atom z : atom (num z).
Proof.
  assert (G : forall n, 0 <= n -> atom (show 10 n)).
  { intros n N. pose proof (show_numeral 10 n ltac:(lia) N) as H. split; [|eapply numeral_nonempty; eauto].
    pose proof (numeral_chars _ _ _ H) as F. eapply Forall_impl; [|exact F].
    intros c (d & J & _). unfold digit_table in J.
    repeat (destruct J as [J|J]; [injection J as <- _; repeat split; discriminate|]). destruct J. }
  unfold num, format_num. destruct (z <? 0) eqn:E.
  - destruct (G (- z) ltac:(lia)) as [F _]. split; [|discriminate]. constructor; [repeat split; discriminate|exact F].
  - destruct (G z ltac:(lia)) as [F N]. split; [exact F|exact N].
Qed.

Lemma num_inj z w : num z = num w -> z = w.
Proof.
  destruct (dec_string z) as (s & A & B), (dec_string w) as (s' & A' & B').
  unfold format_decimal, with_mask in A, A'. fold (num z) in A. fold (num w) in A'. intros E. congruence.
Qed.

Lemma atom_stop t : atom t -> Forall (fun c => stopc c = false) t.
Proof. intros [F _]. eapply Forall_impl; [|exact F]. cbn. tauto. Qed.

Lemma num_pf z w X Y : stops X -> stops Y -> num z ++ X = num w ++ Y -> z = w /\ X = Y.
Proof.
  intros SX SY E. destruct (stop_inj _ _ _ _ (atom_stop _ (num_atom z)) (atom_stop _ (num_atom w)) SX SY E) as [H ->].
  split; [now apply num_inj|reflexivity].
Qed.

Lemma num_head z X c t : num z ++ X = c :: t -> c <> "("%char /\ c <> "N"%char.
Proof.
  destruct (num_atom z) as [F N]. destruct (num z) as [|d u]; [congruence|].
  cbn [app]. intros E. injection E as -> _. inversion F; subst. tauto.
Qed.

Lemma opt_num_pf z w X Y : stops X -> stops Y -> opt_num z ++ X = opt_num w ++ Y -> z = w /\ X = Y.
Proof.
  destruct z as [z|], w as [w|]; cbn [opt_num]; intros SX SY E.
  - destruct (num_pf _ _ _ _ SX SY E) as [-> ->]. auto.
  - apply num_head in E. destruct E; congruence.
  - symmetry in E. apply num_head in E. destruct E; congruence.
  - split; [reflexivity|]. now apply app_inv_head in E.
Qed.

Lemma quoted_pf n m X Y : ~ In "'"%char n -> ~ In "'"%char m -> quoted n ++ X = quoted m ++ Y -> n = m /\ X = Y.
Proof.
  unfold quoted. intros Hn Hm E. rewrite <- !app_assoc in E. apply app_inv_head in E.
  change (n ++ "'"%char :: X = m ++ "'"%char :: Y) in E.
  pose proof (split_first _ _ _ _ _ E Hn Hm) as H. subst m. split; [reflexivity|].
  apply app_inv_head in E. congruence.
Qed.

Lemma aval_pf v w X Y : match v with AField n _ => plain_name n | _ => True end ->
  match w with AField n _ => plain_name n | _ => True end -> stops X -> stops Y ->
  aval_str v ++ X = aval_str w ++ Y -> v = w /\ X = Y.
Proof.
  destruct v as [|z|n z], w as [|z'|n' z']; cbn [aval_str]; intros Pv Pw SX SY E.
  - split; [reflexivity|]. now apply app_inv_head in E.
  - symmetry in E. apply num_head in E. destruct E; congruence.
  - discriminate E.
  - apply num_head in E. destruct E; congruence.
  - destruct (num_pf _ _ _ _ SX SY E) as [-> ->]. auto.
  - apply num_head in E. destruct E; congruence.
  - discriminate E.
  - symmetry in E. apply num_head in E. destruct E; congruence.
  - rewrite <- !app_assoc in E. apply app_inv_head in E.
    apply quoted_pf in E; [|apply Pv|apply Pw]. destruct E as [-> E]. apply app_inv_head in E.
    apply num_pf in E; [|reflexivity|reflexivity]. destruct E as [-> E]. apply app_inv_head in E. auto.
Qed.

Lemma action_pf a b X Y : plain_action a -> plain_action b -> action_str a ++ X = action_str b ++ Y -> a = b /\ X = Y.
Proof.
  destruct a as [n v], b as [m w]. intros [(Pn & _) Pv] [(Pm & _) Pw]. cbn [fst snd] in *.
  unfold action_str. cbn [fst snd]. intros E. rewrite <- !app_assoc in E. apply app_inv_head in E.
  apply quoted_pf in E; [|assumption..]. destruct E as [-> E]. apply app_inv_head in E.
  apply aval_pf in E; [|assumption|assumption|reflexivity|reflexivity]. destruct E as [-> E].
  apply app_inv_head in E. auto.
Qed.

(** A list in brackets, of texts that can be told apart up to a comma or bracket. *)
Lemma list_pf {A} (f : A -> text) (P : A -> Prop) :
  (forall a b X Y, P a -> P b -> stops X -> stops Y -> f a ++ X = f b ++ Y -> a = b /\ X = Y) ->
  (forall a X Y, P a -> f a ++ X <> "]"%char :: Y) ->
  forall l m X Y, Forall P l -> Forall P m ->
  join (T ",") (map f l) ++ "]"%char :: X = join (T ",") (map f m) ++ "]"%char :: Y -> l = m /\ X = Y.
Proof.
  intros Hf Hh.
  assert (J : forall a l X, join (T ",") (map f (a :: l)) ++ "]"%char :: X =
    f a ++ match l with [] => "]"%char :: X | _ => ","%char :: join (T ",") (map f l) ++ "]"%char :: X end).
  { intros a [|b l] X; [reflexivity|].
    change (join (T ",") (map f (a :: b :: l))) with (f a ++ T "," ++ join (T ",") (map f (b :: l))).
    rewrite <- !app_assoc. reflexivity. }
  induction l as [|a l IH]; intros [|b m] X Y Fl Fm E.
  - cbn in E. split; [reflexivity|congruence].
  - exfalso. rewrite J in E. inversion Fm; subst. symmetry in E. eapply Hh; [|exact E]. assumption.
  - exfalso. rewrite J in E. inversion Fl; subst. eapply Hh; [|exact E]. assumption.
  - rewrite !J in E. inversion Fl as [|? ? Pa Pl]; inversion Fm as [|? ? Pb Pm]; subst.
    apply Hf in E; [|assumption|assumption|destruct l; reflexivity|destruct m; reflexivity].
    destruct E as [-> E]. destruct l as [|a' l], m as [|b' m]; try discriminate E.
    + split; [reflexivity|congruence].
    + injection E as E. destruct (IH _ _ _ Pl Pm E) as [-> ->]. auto.
Qed.

Lemma actions_pf l m X Y : Forall plain_action l -> Forall plain_action m ->
  actions_str l ++ X = actions_str m ++ Y -> l = m /\ X = Y.
Proof.
  unfold actions_str. intros Fl Fm E. rewrite <- !app_assoc in E. apply app_inv_head in E.
  eapply list_pf in E; [exact E| | |exact Fl|exact Fm].
  - intros a b U V Pa Pb _ _. now apply action_pf.
  - intros a U V _. discriminate.
Qed.

(** The parts of an instruction. *)
Inductive part : Set :=
| PGoto (z : Z) | PApply (l : list action) | PWrite (l : list action)
| PMeta (v : Z) (m : option Z) | PClear | PMeter (z : Z).
Definition part_str (p : part) : text :=
  match p with
  | PGoto z => T "goto_table=" ++ num z
  | PApply l => T "apply_actions=" ++ actions_str l
  | PWrite l => T "write_actions=" ++ actions_str l
  | PMeta v m => T "write_metadata=" ++ T "(" ++ num v ++ T ", " ++ opt_num m ++ T ")"
  | PClear => T "clear_actions"
  | PMeter z => T "meter=" ++ num z
  end.
Definition parts (i : instr) : list part :=
  match i_goto i with Some z => [PGoto z] | None => [] end ++
  match i_apply i with [] => [] | l => [PApply l] end ++
  match i_write i with [] => [] | l => [PWrite l] end ++
  match i_metadata i with Some (v, m) => [PMeta v m] | None => [] end ++
  (if i_clear i then [PClear] else []) ++
  match i_meter i with Some z => [PMeter z] | None => [] end.
Definition part_ok (p : part) : Prop :=
  match p with PApply l | PWrite l => Forall plain_action l | _ => True end.

Lemma instr_parts_eq i : instr_parts i = map part_str (parts i).
Proof.
  destruct i as [g a w [[v m]|] c t]; unfold instr_parts, parts; cbn [i_goto i_apply i_write i_metadata i_clear i_meter];
    rewrite !map_app; destruct g, a, w, c, t; reflexivity.
Qed.

Lemma part_pf p q X Y : part_ok p -> part_ok q -> stops X -> stops Y ->
  part_str p ++ X = part_str q ++ Y -> p = q /\ X = Y.
Proof.
  destruct p, q; cbn [part_str part_ok]; intros Pp Pq SX SY E; rewrite <- ?app_assoc in E; try discriminate E;
    apply app_inv_head in E.
  - apply num_pf in E; [|assumption..]. destruct E as [-> ->]. auto.
  - apply actions_pf in E; [|assumption..]. destruct E as [-> ->]. auto.
  - apply actions_pf in E; [|assumption..]. destruct E as [-> ->]. auto.
  - apply app_inv_head in E.
    apply num_pf in E; [|reflexivity..]. destruct E as [-> E]. apply app_inv_head in E.
    apply opt_num_pf in E; [|reflexivity..]. destruct E as [-> E]. apply app_inv_head in E. auto.
  - auto.
  - apply num_pf in E; [|assumption..]. destruct E as [-> ->]. auto.
Qed.

Definition find_part {A} (g : part -> option A) (l : list part) : option A :=
  fold_right (fun p r => match g p with Some x => Some x | None => r end) None l.

Lemma parts_inj i j : parts i = parts j -> i = j.
Proof.
  intros E.
  assert (G : forall A (g : part -> option A), find_part g (parts i) = find_part g (parts j)) by (intros; now rewrite E).
  pose proof (G _ (fun p => match p with PGoto z => Some z | _ => None end)) as G1.
  pose proof (G _ (fun p => match p with PApply z => Some z | _ => None end)) as G2.
  pose proof (G _ (fun p => match p with PWrite z => Some z | _ => None end)) as G3.
  pose proof (G _ (fun p => match p with PMeta v m => Some (v, m) | _ => None end)) as G4.
  pose proof (G _ (fun p => match p with PClear => Some tt | _ => None end)) as G5.
  pose proof (G _ (fun p => match p with PMeter z => Some z | _ => None end)) as G6.
  clear G E.
  assert (Q : forall k,
    find_part (fun p => match p with PGoto z => Some z | _ => None end) (parts k) = i_goto k /\
    find_part (fun p => match p with PApply z => Some z | _ => None end) (parts k) = match i_apply k with [] => None | l => Some l end /\
    find_part (fun p => match p with PWrite z => Some z | _ => None end) (parts k) = match i_write k with [] => None | l => Some l end /\
    find_part (fun p => match p with PMeta v m => Some (v, m) | _ => None end) (parts k) = i_metadata k /\
    find_part (fun p => match p with PClear => Some tt | _ => None end) (parts k) = (if i_clear k then Some tt else None) /\
    find_part (fun p => match p with PMeter z => Some z | _ => None end) (parts k) = i_meter k).
  { intros [[g|] [|a al] [|w wl] [[v m]|] [] [t|]]; repeat split. }
  destruct (Q i) as (A1 & A2 & A3 & A4 & A5 & A6), (Q j) as (B1 & B2 & B3 & B4 & B5 & B6).
  rewrite A1, B1 in G1. rewrite A2, B2 in G2. rewrite A3, B3 in G3. rewrite A4, B4 in G4. rewrite A5, B5 in G5. rewrite A6, B6 in G6.
  clear - G1 G2 G3 G4 G5 G6. destruct i as [g a w d c t], j as [g' a' w' d' c' t']; cbn in *.
  assert (a = a') by (destruct a, a'; congruence). assert (w = w') by (destruct w, w'; congruence).
  assert (c = c') by (destruct c, c'; congruence). congruence.
Qed.

Lemma parts_ok i : Forall plain_action (i_apply i) -> Forall plain_action (i_write i) -> Forall part_ok (parts i).
Proof.
  intros A W. destruct i as [[g|] [|a al] [|w wl] [[v m]|] [] [t|]]; cbn in *; repeat (constructor; [exact I || assumption|]); constructor.
Qed.

Lemma instr_inj i j :
  Forall plain_action (i_apply i) -> Forall plain_action (i_write i) ->
  Forall plain_action (i_apply j) -> Forall plain_action (i_write j) ->
  instr_str i = instr_str j -> i = j.
Proof.
  intros A W A' W' E. unfold instr_str in E. apply app_inv_head in E. rewrite !instr_parts_eq in E.
  change (T "]") with ("]"%char :: []) in E.
  eapply (list_pf part_str part_ok) in E; [apply parts_inj; apply E| | |now apply parts_ok|now apply parts_ok].
  - intros p q X Y. apply part_pf.
  - intros p X Y _. destruct p; discriminate.
Qed.

(** Newlines. *)
Definition flat (t : text) : Prop := ~ In newline t.
Lemma flat_app a b : flat a -> flat b -> flat (a ++ b).
Proof. unfold flat. intros A B H. apply in_app_or in H. tauto. Qed.
Lemma flat_T s : forallb (fun c => negb (Ascii.eqb c newline)) (T s) = true -> flat (T s).
Proof. intros H I. rewrite forallb_forall in H. specialize (H _ I). now rewrite Ascii.eqb_refl in H. Qed.
Lemma flat_num z : flat (num z).
Proof. intros H. destruct (num_atom z) as [F _]. rewrite Forall_forall in F. now destruct (F _ H) as (_ & _ & _ & X). Qed.
Lemma flat_opt z : flat (opt_num z).
Proof. destruct z; [apply flat_num|now apply flat_T]. Qed.
Lemma flat_join l : Forall flat l -> flat (join (T ",") l).
Proof.
  induction 1 as [|x l H F IH]; [intros []|]. destruct l as [|y l]; [exact H|].
  change (join (T ",") (x :: y :: l)) with (x ++ T "," ++ join (T ",") (y :: l)).
  repeat apply flat_app; auto. now apply flat_T.
Qed.
Lemma flat_action a : plain_action a -> flat (action_str a).
Proof.
  destruct a as [n [|z|m z]]; intros [(_ & _ & N) V]; cbn [fst snd] in *; unfold action_str, aval_str, quoted; cbn [fst snd].
  - repeat apply flat_app; auto; now apply flat_T.
  - repeat apply flat_app; auto using flat_num; now apply flat_T.
  - destruct V as (_ & _ & M). repeat apply flat_app; auto using flat_num; now apply flat_T.
Qed.
Lemma flat_actions l : Forall plain_action l -> flat (actions_str l).
Proof.
  intros F. unfold actions_str. repeat apply flat_app; try (now apply flat_T). apply flat_join.
  apply Forall_map. eapply Forall_impl; [|exact F]. apply flat_action.
Qed.
Lemma flat_instr i : Forall plain_action (i_apply i) -> Forall plain_action (i_write i) -> flat (instr_str i).
Proof.
  intros A W. unfold instr_str. rewrite instr_parts_eq. repeat apply flat_app; try (now apply flat_T).
  apply flat_join, Forall_map. eapply Forall_impl; [|apply parts_ok; eauto].
  intros [z|l|l|v m| |z] P; cbn [part_str part_ok] in *; repeat first [apply flat_num|apply flat_opt|apply flat_actions; assumption|apply flat_T; reflexivity|apply flat_app].
Qed.

(** The text of a rule exists, with each part on one line. *)
Theorem C100_shown : forall fmt r, plain_rule fmt r -> exists s, show_rule fmt r = Ok s /\ plain s.
Proof.
  intros fmt r (M & A & W). destruct (C99_one_line _ _ M) as (t & E & N).
  unfold show_rule. rewrite E. cbn [rbind]. eexists. split; [reflexivity|].
  repeat split; cbn; [apply flat_num|apply flat_opt|exact N|now apply flat_instr|apply flat_num].
Qed.

(** Different rules have different texts. *)
Theorem C100_rule : forall fmt r r' s s', plain_rule fmt r -> plain_rule fmt r' ->
  show_rule fmt r = Ok s -> show_rule fmt r' = Ok s' -> rule_str s = rule_str s' -> r = r'.
Proof.
  intros fmt r r' s s' P P' E E' H.
  destruct (C100_shown _ _ P) as (x & X & Px), (C100_shown _ _ P') as (y & Y & Py).
  assert (x = s) by congruence. assert (y = s') by congruence. subst x y.
  assert (S : s = s').
  { assert (Q : [s] = [s']); [|congruence]. apply C98_path; [auto|auto|].
    unfold format_path. cbn [fold_left add_rule app]. now rewrite H. }
  subst s'. clear H X Y Px Py. destruct P as (M & A & W), P' as (M' & A' & W').
  destruct (C99_one_line _ _ M) as (t & Et & _), (C99_one_line _ _ M') as (t' & Et' & _).
  unfold show_rule in E, E'. rewrite Et in E. rewrite Et' in E'. cbn [rbind] in E, E'.
  destruct r as [p c m i b], r' as [p' c' m' i' b']; cbn [t_priority t_cookie t_match t_instr t_table] in *.
  destruct s as [s1 s2 s3 s4 s5]. injection E as E1 E2 E3 E4 E5. injection E' as F1 F2 F3 F4 F5.
  assert (p = p') by (apply num_inj; congruence). assert (b = b') by (apply num_inj; congruence).
  assert (i = i') by (apply instr_inj; auto; congruence).
  assert (m = m') by (eapply C99_unambiguous; [exact M|exact M'|exact Et|congruence]).
  assert (c = c').
  { destruct (opt_num_pf c c' ["," ]%char ["," ]%char eq_refl eq_refl); [congruence|assumption]. }
  congruence.
Qed.

(** The report of -D tells the rules: reports of plain rules that print the same are the
    same. *)
Theorem C100_report : forall fmt (shows := fun r s => plain_rule fmt r /\ show_rule fmt r = Ok s)
  (rep rep' : list (list trule * list (list trule))) sbs sbs',
  Forall2 (fun a b => Forall2 shows (fst a) (fst b) /\ Forall2 (Forall2 shows) (snd a) (snd b)) rep sbs ->
  Forall2 (fun a b => Forall2 shows (fst a) (fst b) /\ Forall2 (Forall2 shows) (snd a) (snd b)) rep' sbs' ->
  print_report sbs = print_report sbs' -> rep = rep'.
Proof.
  intros fmt shows rep rep' sbs sbs' H H' E.
  assert (U : forall r r' s, shows r s -> shows r' s -> r = r').
  { intros r r' s [P X] [P' X']. eapply C100_rule; eauto. }
  assert (L : forall A B (R : A -> B -> Prop), (forall a a' b, R a b -> R a' b -> a = a') ->
            forall l l' m, Forall2 R l m -> Forall2 R l' m -> l = l').
  { intros A B R HR l l' m F. revert l'. clear - HR F. induction F as [|x y l m Hxy F IH]; intros l2 F2;
      inversion F2; subst; [reflexivity|].
    f_equal; eauto. }
  assert (PL : forall r s, shows r s -> plain s).
  { intros r s [P X]. destruct (C100_shown _ _ P) as (x & Y & Q). congruence. }
  assert (PF : forall A B (R : A -> B -> Prop) (Q : B -> Prop), (forall a b, R a b -> Q b) ->
            forall l m, Forall2 R l m -> Forall Q m).
  { intros A B R Q HQ l m F. induction F; constructor; eauto. }
  assert (G : forall x y, Forall2 (fun a b => Forall2 shows (fst a) (fst b) /\ Forall2 (Forall2 shows) (snd a) (snd b)) x y ->
            plain_report y).
  { intros x y F p Hp.
    apply (PF _ _ _ (fun b => Forall plain (fst b) /\ Forall (Forall plain) (snd b))) in F.
    - rewrite Forall_forall in F. auto.
    - intros a b [X Y]. split; eauto. }
  assert (S : sbs = sbs') by (apply C98_unambiguous; eauto). subst sbs'.
  eapply L; [|exact H|exact H']. intros [a1 a2] [b1 b2] [c1 c2] [X Y] [X' Y']. cbn [fst snd] in *.
  f_equal; eauto.
Qed.

(** The condition on names is needed in the model, which does not escape: a name with a
    quote would make two lists look the same. *)
Example C100_names_needed : exists a b : list action, a <> b /\ actions_str a = actions_str b.
Proof.
  exists [(T "A', 1),('B", ANone)], [(T "A", ANum 1); (T "B", ANone)].
  split; [discriminate|vm_compute; reflexivity].
Qed.

Definition ex_rule : trule :=
  TRule 1001 None ex_m
    (Instr (Some 2) [(T "SET_FIELD", AField (T "VLAN_VID") 4097); (T "OUTPUT", ANum 1)] [(T "POP_VLAN", ANone)]
       (Some (5, None)) true None) 0.

Example C100_ex : plain_rule ex_fmt ex_rule /\
  instr_str (t_instr ex_rule) =
  T "Instructions[goto_table=2,apply_actions=[('SET_FIELD', ('VLAN_VID', 4097)),('OUTPUT', 1)],write_actions=[('POP_VLAN', None)],write_metadata=(5, None),clear_actions]".
Proof.
  split; [|vm_compute; reflexivity]. split; [exact (proj1 C99_ex)|].
  split; repeat constructor; cbn; intros X; repeat (destruct X as [X|X]; [discriminate X|]); destruct X.
Qed.

Print Assumptions C100_shown.
Print Assumptions C100_rule.
Print Assumptions C100_report.
