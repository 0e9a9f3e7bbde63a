(** Proofs about Normalise.v. *)
From Verif Require Export Normalise SpecNormalise WildcardProofs MatchProofs BddProofs CuddProofs BddApi.
From Coq Require Import Lia Permutation Sorted.
Local Open Scope list_scope.
Local Open Scope Z_scope.
Local Opaque NB WC_FULLWC.

(** *** Generic *)
Lemma rfold_app {S X} (f : S -> X -> result S) l1 l2 s : rfold f (l1 ++ l2) s = do s' <- rfold f l1 s; rfold f l2 s'.
Proof. revert s. induction l1 as [|x l IH]; intros s; cbn; [reflexivity|]. destruct (f s x) as [s'|e]; cbn; [apply IH|reflexivity]. Qed.

Lemma tta_none {A} (acts : list A) t : term_to_action acts t = Ok None <-> t = 0.
Proof.
  unfold term_to_action. destruct (Z.eqb_spec t 0) as [->|n]; [tauto|]. destruct (t <? 0); [split; [discriminate|tauto]|].
  destruct (nth_error _ _); (split; [discriminate|tauto]).
Qed.
Lemma tta_ext {A} (acts ext : list A) t o : term_to_action acts t = Ok o -> term_to_action (acts ++ ext) t = Ok o.
Proof.
  destruct o as [a|]; [apply term_to_action_ext|]. rewrite !tta_none. auto.
Qed.
Lemma tta_inj {A} (acts : list A) t u o : NoDup acts -> term_to_action acts t = Ok o -> term_to_action acts u = Ok o -> t = u.
Proof.
  destruct o as [a|]; [|rewrite !tta_none; congruence]. unfold term_to_action. intros N.
  destruct (Z.eqb_spec t 0), (Z.eqb_spec u 0); try discriminate. destruct (Z.ltb_spec t 0), (Z.ltb_spec u 0); try discriminate.
  destruct (nth_error acts (Z.to_nat (t - 1))) eqn:E1; try discriminate. destruct (nth_error acts (Z.to_nat (u - 1))) eqn:E2; try discriminate.
  intros [= ->] [= ->]. assert (Z.to_nat (t - 1) = Z.to_nat (u - 1)); [|lia].
  apply (proj1 (NoDup_nth_error acts) N); [|congruence]. apply nth_error_Some. congruence.
Qed.

(** *** meld on reduced ADDs *)
Lemma ameld_denote f g p : adenote (addApply addMeld f g) p = z_meld (adenote f p) (adenote g p).
Proof. apply addApply_denote; [apply meld_sound|apply meld_const]. Qed.
Lemma ameld_wf f g lo : add_wf lo f -> add_wf lo g -> add_wf lo (addApply addMeld f g).
Proof. apply addApply_wf, meld_op_wf. Qed.

(** *** The difference of an ADD and a part of it is exact *)
Lemma embed_unadd0 f : embed (fun x => x) (unadd0 f) = f.
Proof.
  induction f as [v|n t IHt e IHe]; cbn [unadd0 embed].
  - destruct (Z.eqb_spec v 0) as [->|]; cbn [embed]; [reflexivity|]. now rewrite encode_0.
  - now rewrite IHt, IHe.
Qed.
Lemma all_terms_unadd0 f : all_terms (fun x => x <> 0) (unadd0 f).
Proof. induction f as [v|n t IHt e IHe]; cbn [unadd0]; [destruct (Z.eqb_spec v 0)|]; cbn [all_terms]; auto. Qed.
Lemma adiff_eq f g : addApply addDifference f g = embed (fun x => x) (difference Z.eq_dec 1 (unadd0 f) (unadd0 g)).
Proof.
  rewrite (agree_difference Z.eq_dec (fun x => x) (fun x => x <> 0)); try apply all_terms_unadd0; try discriminate; auto.
  now rewrite !embed_unadd0.
Qed.
Lemma adiff_wf f g : add_wf 0 f -> add_wf 0 g -> add_wf 0 (addApply addDifference f g).
Proof.
  intros Wf Wg. rewrite adiff_eq. apply (embed_wf (fun x => x) (fun x => x <> 0)); auto.
  - apply all_terms_difference. discriminate.
  - apply difference_wf; now apply unadd0_wf.
Qed.
Lemma adiff_bool f g p : adenote (addApply addDifference f g) p = 0 \/ adenote (addApply addDifference f g) p = 1.
Proof.
  rewrite adiff_eq, embed_denote. destruct (difference_denote Z.eq_dec 1 p (unadd0 f) (unadd0 g)) as [[H|H] _]; rewrite H; auto.
Qed.
Lemma adiff_complete f g p : adenote f p <> adenote g p -> adenote (addApply addDifference f g) p = 1.
Proof.
  intros H. rewrite adiff_eq, embed_denote. destruct (difference_denote Z.eq_dec 1 p (unadd0 f) (unadd0 g)) as [_ [H1 _]].
  rewrite H1; [reflexivity|]. rewrite !unadd0_denote. destruct (Z.eqb_spec (adenote f p) 0), (Z.eqb_spec (adenote g p) 0); congruence.
Qed.
Lemma adiff_sound f g p : adenote f p <> 0 -> adenote f p = adenote g p -> adenote (addApply addDifference f g) p = 0.
Proof.
  intros H E. rewrite adiff_eq, embed_denote. destruct (difference_denote Z.eq_dec 1 p (unadd0 f) (unadd0 g)) as [_ [_ H1]].
  rewrite !unadd0_denote, E in H1. rewrite E in H. destruct (Z.eqb_spec (adenote g p) 0); [congruence|].
  rewrite H1; [reflexivity|discriminate|reflexivity].
Qed.
Lemma adiff_exact f g : add_wf 0 f -> add_wf 0 g -> (forall p, adenote f p = 0 -> adenote g p = 0) ->
  forall p, adenote (addApply addDifference f g) p = if adenote f p =? adenote g p then 0 else 1.
Proof.
  intros Wf Wg H p. rewrite adiff_eq, embed_denote.
  rewrite (difference_exact Z.eq_dec 1 (unadd0 f) (unadd0 g) 0); try now apply unadd0_wf.
  - rewrite !unadd0_denote. destruct (Z.eqb_spec (adenote f p) (adenote g p)) as [->|N]; destruct opt_eq_dec as [E|E]; try congruence.
    exfalso. revert E. destruct (Z.eqb_spec (adenote f p) 0), (Z.eqb_spec (adenote g p) 0); congruence.
  - intros q. rewrite !unadd0_denote. specialize (H q). destruct (Z.eqb_spec (adenote f q) 0); [|discriminate].
    rewrite H by auto. reflexivity.
Qed.
Lemma ainter_denote f g p : adenote (addApply addIntersection f g) p = z_intersection (adenote f p) (adenote g p).
Proof. apply addApply_denote; [apply intersection_sound|apply intersection_const]. Qed.
Lemma ainter_wf f g lo : add_wf lo f -> add_wf lo g -> add_wf lo (addApply addIntersection f g).
Proof. apply addApply_wf, intersection_op_wf. Qed.
Lemma wf_BK f : add_wf 0 f -> (f = BK <-> forall p, adenote f p = 0).
Proof. intros W. rewrite (adenote_inj 0 f BK); [reflexivity|auto|exact Logic.I]. Qed.
Lemma nonBK_witness f : add_wf 0 f -> f <> BK -> exists p, adenote f p <> 0.
Proof.
  intros W N. destruct (proj1 (bdd_bool_spec Z.eq_dec 0 (unadd0 f) (unadd0_wf f 0 W))) as [p H].
  - rewrite <- (agree_bool Z.eq_dec (fun x => x) (fun x => x <> 0)) with (lo := 0); auto; try apply all_terms_unadd0; try now apply unadd0_wf.
    rewrite embed_unadd0. unfold cudd_bool. destruct add_eq_dec; [contradiction|reflexivity].
  - exists p. intros E. rewrite unadd0_denote, E in H. now apply H.
Qed.

(** *** One wildcard *)
Definition entry_ok (wc : Z) : Prop := wc = 0 \/ wc_ok wc.
Lemma accepts_0 p : ~ accepts 0 p.
Proof. intros H. specialize (H 0 ltac:(rewrite NB_val; lia)). rewrite Z.testbit_0_l in H. discriminate. Qed.
Lemma acceptsb_0 p : acceptsb 0 p = false.
Proof. destruct (acceptsb 0 p) eqn:E; [|reflexivity]. apply acceptsb_spec in E. now apply accepts_0 in E. Qed.

Section Norm.
  Context (SHIFT : Z).
  Hypothesis shift_pos : 0 < SHIFT.
  Hypothesis shift_even : SHIFT mod 2 = 0.

  Lemma wc_BDD_ok acts wc fa acts' b : wc_BDD SHIFT acts wc fa = (acts', b) -> NoDup acts -> entry_ok wc ->
    (exists ext, acts' = acts ++ ext) /\ NoDup acts' /\ add_wf 0 b /\
    forall p, term_to_action acts' (adenote b p) = Ok (if acceptsb wc p then Some fa else None).
  Proof using shift_pos shift_even.
    unfold wc_BDD. intros E N W. destruct (Z.eqb_spec wc 0) as [->|n].
    - injection E as <- <-. split; [exists []; now rewrite app_nil_r|]. split; [auto|]. split; [exact Logic.I|].
      intros p. rewrite acceptsb_0. reflexivity.
    - destruct W as [W|W]; [contradiction|]. destruct (action_id tkey_eq_dec acts fa) as [acts1 t] eqn:Ea. injection E as <- <-.
      apply action_id_spec in Ea as [H1 [H2 [H3 H4]]]. destruct (cudd_wc_ok SHIFT wc t shift_pos shift_even W ltac:(lia)) as [H5 H6].
      split; [auto|]. split; [auto|]. split; [auto|]. intros p. destruct (H6 p) as [H7 H8].
      destruct (acceptsb wc p) eqn:Ep.
      + apply acceptsb_spec in Ep. now rewrite (H7 Ep).
      + rewrite H8; [reflexivity|]. intros Ha. apply acceptsb_spec in Ha. congruence.
  Qed.

  (** *** A list of entries *)
  Definition first_entry (es : list (Z * po_value)) (p : packet) : option po_value :=
    option_map snd (find (fun e => acceptsb (fst e) p) es).
  Definition orelse {X} (x y : option X) : option X := match x with Some _ => x | None => y end.
  Lemma first_entry_app es1 es2 p : first_entry (es1 ++ es2) p = orelse (first_entry es1 p) (first_entry es2 p).
  Proof.
    unfold first_entry. induction es1 as [|e es IH]; cbn [app find]; [reflexivity|]. destruct (acceptsb (fst e) p); [reflexivity|apply IH].
  Qed.
  Definition sem (acts : list tkey) (b : add) (f : packet -> option po_value) : Prop :=
    add_wf 0 b /\ forall p, term_to_action acts (adenote b p) = Ok (option_map FAct (f p)).
  Lemma sem_ext acts ext b f : sem acts b f -> sem (acts ++ ext) b f.
  Proof. intros [H1 H2]. split; [auto|]. intros p. now apply tta_ext. Qed.
  Lemma sem_meld acts a b f g : sem acts a f -> sem acts b g -> sem acts (addApply addMeld a b) (fun p => orelse (f p) (g p)).
  Proof.
    intros [H1 H2] [H3 H4]. split; [now apply ameld_wf|]. intros p. rewrite ameld_denote. unfold z_meld.
    destruct (Z.eqb_spec (adenote a p) 0) as [E|E].
    - specialize (H2 p). rewrite E in H2. destruct (f p); [discriminate H2|]. apply H4.
    - rewrite H2. destruct (f p) eqn:Ef; [reflexivity|]. elim E. apply (tta_none acts). rewrite H2, Ef. reflexivity.
  Qed.
  Lemma sem_unique acts a b f : NoDup acts -> sem acts a f -> sem acts b f -> a = b.
  Proof.
    intros N [H1 H2] [H3 H4]. apply (adenote_inj 0); auto. intros p. eapply tta_inj; [exact N|apply H2|apply H4].
  Qed.
  Lemma wc_BDD_sem acts wc d acts' b : wc_BDD SHIFT acts wc (FAct d) = (acts', b) -> NoDup acts -> entry_ok wc ->
    (exists ext, acts' = acts ++ ext) /\ NoDup acts' /\ sem acts' b (first_entry [(wc, d)]).
  Proof using shift_pos shift_even.
    intros E N W. destruct (wc_BDD_ok _ _ _ _ _ E N W) as [H1 [H2 [H3 H4]]]. split; [auto|]. split; [auto|]. split; [auto|].
    intros p. rewrite H4. unfold first_entry. cbn [find fst]. destruct (acceptsb wc p); reflexivity.
  Qed.

  Lemma add_entries_ok es : forall acts b f acts' b', fold_left (add_entry SHIFT) es (acts, b) = (acts', b') ->
    NoDup acts -> sem acts b f -> (forall e, In e es -> entry_ok (fst e)) ->
    (exists ext, acts' = acts ++ ext) /\ NoDup acts' /\ sem acts' b' (fun p => orelse (f p) (first_entry es p)).
  Proof using shift_pos shift_even.
    induction es as [|[wc d] es IH]; intros acts b f acts' b' E N S W; cbn [fold_left] in E.
    - injection E as <- <-. split; [exists []; now rewrite app_nil_r|]. split; [auto|].
      destruct S as [S1 S2]. split; [auto|]. intros p. rewrite S2. destruct (f p); reflexivity.
    - unfold add_entry at 2 in E. cbn [fst snd] in E. destruct (wc_BDD SHIFT acts wc (FAct d)) as [acts1 b1] eqn:E1.
      destruct (wc_BDD_sem _ _ _ _ _ E1 N) as [[ext1 ->] [N1 S1]]; [apply (W (wc, d)); now left|].
      apply (IH _ _ (fun p => orelse (f p) (first_entry [(wc, d)] p))) in E; auto.
      + destruct E as [[ext2 ->] [N2 S2]]. split; [exists (ext1 ++ ext2); now rewrite app_assoc|]. split; [auto|].
        destruct S2 as [S2 S3]. split; [auto|]. intros p. rewrite S3. change ((wc, d) :: es) with ([(wc, d)] ++ es).
        rewrite first_entry_app. destruct (f p), (first_entry [(wc, d)] p); reflexivity.
      + apply sem_meld; [now apply sem_ext|auto].
      + intros e He. apply W. now right.
  Qed.

  (** *** Lists of ADDs *)
  Definition first_sem (fs : list (packet -> option po_value)) (p : packet) : option po_value :=
    fold_right (fun f r => orelse (f p) r) None fs.
  Lemma build_entries_ok es : forall acts bs fs acts' bs', fold_left (build_entry SHIFT) es (acts, bs) = (acts', bs') ->
    NoDup acts -> Forall2 (sem acts) bs fs -> (forall e, In e es -> entry_ok (fst e)) ->
    (exists ext, acts' = acts ++ ext) /\ NoDup acts' /\ Forall2 (sem acts') bs' (fs ++ map (fun e => first_entry [e]) es).
  Proof using shift_pos shift_even.
    induction es as [|[wc d] es IH]; intros acts bs fs acts' bs' E N S W; cbn [fold_left] in E.
    - injection E as <- <-. split; [exists []; now rewrite app_nil_r|]. split; [auto|]. cbn. now rewrite app_nil_r.
    - unfold build_entry at 2 in E. cbn [fst snd] in E. destruct (wc_BDD SHIFT acts wc (FAct d)) as [acts1 b1] eqn:E1.
      destruct (wc_BDD_sem _ _ _ _ _ E1 N) as [[ext1 ->] [N1 S1]]; [apply (W (wc, d)); now left|].
      apply (IH _ _ (fs ++ [first_entry [(wc, d)]])) in E; auto.
      + destruct E as [[ext2 ->] [N2 S2]]. split; [exists (ext1 ++ ext2); now rewrite app_assoc|]. split; [auto|].
        rewrite <- (app_assoc fs) in S2. exact S2.
      + apply Forall2_app; [|constructor; auto]. clear - S. induction S; constructor; auto. now apply sem_ext.
      + intros e He. apply W. now right.
  Qed.
  (** Naive and divide-and-conquer number the same actions in the same order. *)
  Lemma same_acts es : forall acts b bs,
    fst (fold_left (add_entry SHIFT) es (acts, b)) = fst (fold_left (build_entry SHIFT) es (acts, bs)).
  Proof.
    induction es as [|[wc d] es IH]; intros acts b bs; cbn [fold_left]; [reflexivity|]. unfold add_entry at 2, build_entry at 2. cbn [fst snd].
    destruct (wc_BDD SHIFT acts wc (FAct d)) as [acts1 b1]. apply IH.
  Qed.
  Lemma build_length es : forall acts bs, List.length (snd (fold_left (build_entry SHIFT) es (acts, bs))) = (List.length bs + List.length es)%nat.
  Proof.
    induction es as [|[wc d] es IH]; intros acts bs; cbn [fold_left]; [cbn; lia|]. unfold build_entry at 2. cbn [fst snd].
    destruct (wc_BDD SHIFT acts wc (FAct d)) as [acts1 b1]. rewrite IH, app_length. cbn. lia.
  Qed.

  Lemma pair_up_ok acts bs : forall fs, Forall2 (sem acts) bs fs ->
    exists gs, Forall2 (sem acts) (pair_up bs) gs /\ forall p, first_sem gs p = first_sem fs p.
  Proof.
    assert (P : forall n (bs : list add) fs, (List.length bs <= n)%nat -> Forall2 (sem acts) bs fs ->
      exists gs, Forall2 (sem acts) (pair_up bs) gs /\ forall p, first_sem gs p = first_sem fs p).
    { induction n as [|n IH]; intros l fs L H.
      - destruct l; [|cbn in L; lia]. inversion H; subst. exists []. split; [constructor|reflexivity].
      - destruct H as [|a f l fs Ha H]; [exists []; split; [constructor|reflexivity]|].
        destruct H as [|b g l fs Hb H]; [exists [f]; split; [constructor; auto|reflexivity]|].
        cbn [pair_up]. destruct (IH l fs) as [gs [G1 G2]]; [cbn in L; lia|auto|].
        exists ((fun p => orelse (f p) (g p)) :: gs). split; [constructor; auto; now apply sem_meld|].
        intros p. cbn [first_sem fold_right]. fold (first_sem gs p). fold (first_sem fs p). rewrite G2. destruct (f p), (g p); reflexivity. }
    intros fs. apply (P (List.length bs)). lia.
  Qed.
  Lemma pair_up_length a b bs : (List.length (pair_up (a :: b :: bs)) < List.length (a :: b :: bs))%nat /\ pair_up (a :: b :: bs) <> [].
  Proof.
    split; [|discriminate]. cbn [pair_up List.length].
    assert (forall n (l : list add), (List.length l <= n)%nat -> (List.length (pair_up l) <= List.length l)%nat) as P.
    { induction n as [|n IH]; intros l L; [destruct l; cbn in *; lia|].
      destruct l as [|x [|y l]]; cbn [pair_up List.length] in *; [lia|lia|]. specialize (IH l). lia. }
    specialize (P _ bs (le_n _)). lia.
  Qed.
  Lemma merge_all_ok acts : forall fuel bs fs, Forall2 (sem acts) bs fs -> bs <> [] -> (List.length bs <= S fuel)%nat ->
    exists b, merge_all fuel bs = Ok b /\ sem acts b (first_sem fs).
  Proof.
    induction fuel as [|n IH]; intros bs fs S N L.
    - destruct S as [|b f bs fs Hb S]; [congruence|]. destruct S; [|cbn in L; lia]. exists b. split; [reflexivity|].
      destruct Hb as [H1 H2]. split; [auto|]. intros p. rewrite H2. cbn. destruct (f p); reflexivity.
    - destruct bs as [|a [|b bs]]; [congruence| |].
      + inversion S as [|? f ? fs' Hb S' E1 E2]; subst. inversion S'; subst. exists a. split; [reflexivity|].
        destruct Hb as [H1 H2]. split; [auto|]. intros p. rewrite H2. cbn. destruct (f p); reflexivity.
      + destruct (pair_up_ok _ _ _ S) as [gs [G1 G2]]. destruct (pair_up_length a b bs) as [P1 P2].
        destruct (IH _ gs G1 P2) as [c [Ec Sc]]; [lia|]. exists c. split; [exact Ec|].
        destruct Sc as [H1 H2]. split; [auto|]. intros p. now rewrite H2, G2.
  Qed.

  (** *** Rules *)
  Section Entries.
    Context (mr : option (list (string * Z) -> list (string * Z))).
    Definition all_entries (rules : list rule) : result (list (Z * po_value)) :=
      rfold (fun es r => do e <- rule_entries mr r; Ok (es ++ e)) rules [].
    Lemma rfold_naive rules : forall acc st,
      rfold (naive_rule SHIFT mr) rules (fold_left (add_entry SHIFT) acc st) =
      do es <- rfold (fun es r => do e <- rule_entries mr r; Ok (es ++ e)) rules acc; Ok (fold_left (add_entry SHIFT) es st).
    Proof.
      induction rules as [|r rules IH]; intros acc st; cbn [rfold rbind]; [reflexivity|]. unfold naive_rule at 1.
      destruct (rule_entries mr r) as [es|e]; cbn [rbind]; [|reflexivity]. rewrite <- fold_left_app. apply IH.
    Qed.
    Lemma rfold_build rules : forall acc st,
      rfold (build_rule SHIFT mr) rules (fold_left (build_entry SHIFT) acc st) =
      do es <- rfold (fun es r => do e <- rule_entries mr r; Ok (es ++ e)) rules acc; Ok (fold_left (build_entry SHIFT) es st).
    Proof.
      induction rules as [|r rules IH]; intros acc st; cbn [rfold rbind]; [reflexivity|]. unfold build_rule at 1.
      destruct (rule_entries mr r) as [es|e]; cbn [rbind]; [|reflexivity]. rewrite <- fold_left_app. apply IH.
    Qed.
    Lemma naive_eq acts rules : normalise_naive SHIFT mr acts rules =
      if one_table rules then do es <- all_entries rules; Ok (fold_left (add_entry SHIFT) es (acts, BK)) else Err AssertionError.
    Proof. unfold normalise_naive, all_entries. now rewrite <- (rfold_naive rules [] (acts, BK)). Qed.
    Lemma dc_eq acts rules : normalise_dc SHIFT mr acts rules =
      if one_table rules then do es <- all_entries rules;
        let st := fold_left (build_entry SHIFT) es (acts, []) in
        do b <- merge_all (List.length (snd st)) (snd st); Ok (fst st, b)
      else Err AssertionError.
    Proof.
      unfold normalise_dc, all_entries. destruct (one_table rules); [|reflexivity].
      rewrite (rfold_build rules [] (acts, []) : rfold (build_rule SHIFT mr) rules (acts, []) = _).
      destruct (rfold _ rules []); reflexivity.
    Qed.
    Lemma sem_empty acts : sem acts BK (fun _ => None).
    Proof. split; [exact Logic.I|]. reflexivity. Qed.
    Lemma first_sem_entries es p : first_sem (map (fun e => first_entry [e]) es) p = first_entry es p.
    Proof.
      induction es as [|e es IH]; [reflexivity|]. cbn [map first_sem fold_right]. fold (first_sem (map (fun e => first_entry [e]) es) p).
      rewrite IH. change (e :: es) with ([e] ++ es). now rewrite first_entry_app.
    Qed.

    Lemma naive_sem acts rules acts' b es : all_entries rules = Ok es -> (forall e, In e es -> entry_ok (fst e)) -> NoDup acts ->
      normalise_naive SHIFT mr acts rules = Ok (acts', b) ->
      (exists ext, acts' = acts ++ ext) /\ NoDup acts' /\ sem acts' b (first_entry es).
    Proof using shift_pos shift_even.
      rewrite naive_eq. intros -> W N. destruct (one_table rules); [|discriminate]. cbn [rbind]. intros [= E].
      apply add_entries_ok with (f := fun _ => None) in E; auto; try apply sem_empty.
    Qed.
    Lemma dc_sem acts rules es : all_entries rules = Ok es -> es <> [] -> (forall e, In e es -> entry_ok (fst e)) -> NoDup acts ->
      normalise_dc SHIFT mr acts rules = normalise_naive SHIFT mr acts rules.
    Proof using shift_pos shift_even.
      rewrite naive_eq, dc_eq. intros -> Ne W N. destruct (one_table rules); [|reflexivity]. cbn [rbind].
      destruct (fold_left (add_entry SHIFT) es (acts, BK)) as [a1 b] eqn:E1.
      destruct (fold_left (build_entry SHIFT) es (acts, [])) as [a2 bs] eqn:E2.
      assert (a1 = a2) by (assert (H := same_acts es acts BK []); rewrite E1, E2 in H; exact H). subst a2.
      assert (L := build_length es acts []). rewrite E2 in L. cbn [snd List.length Nat.add] in L. cbn [fst snd].
      apply add_entries_ok with (f := fun _ => None) in E1 as [_ [N1 S1]]; auto; try apply sem_empty.
      apply build_entries_ok with (fs := []) in E2 as [_ [_ S2]]; auto. cbn [app] in S2.
      destruct (merge_all_ok a1 (List.length bs) bs _ S2) as [c [Ec Sc]]; [destruct es; [congruence|destruct bs; discriminate]|lia|].
      rewrite Ec. cbn [rbind]. do 2 f_equal. apply (sem_unique a1 c b (first_entry es)); auto.
      destruct Sc as [H1 H2]. split; [auto|]. intros p. now rewrite H2, first_sem_entries.
    Qed.
  End Entries.

  (** *** Without set-field redundancy *)
  Definition rules_ok (reg : registry) (rules : list rule) : Prop := forall r, In r rules -> match_ok reg (rmatch (rcore r)).
  Lemma rule_wc_ok reg r : match_ok reg (rmatch (rcore r)) ->
    exists w, rule_wc r = Ok w /\ wc_ok w /\ forall p, acceptsb w p = true <-> rule_accepts r p.
  Proof.
    intros H. apply match_wildcard_ok in H as (m' & w & E & _ & W & _ & _ & _ & _ & _ & A). exists w.
    unfold rule_wc, match_wc. rewrite E. split; [reflexivity|]. split; [auto|]. intros p. rewrite acceptsb_spec. apply A.
  Qed.
  Lemma first_match_total reg rules p : rules_ok reg rules -> exists o, first_match rules p o.
  Proof.
    induction rules as [|r rules IH]; intros H; [exists None; constructor|].
    destruct (rule_wc_ok reg r) as (w & _ & _ & A); [apply H; now left|]. destruct (acceptsb w p) eqn:E.
    - exists (Some r). constructor. now apply A.
    - destruct IH as [o Ho]; [intros x Hx; apply H; now right|]. exists o. constructor; [|auto]. intros Hr. apply A in Hr. congruence.
  Qed.
  Lemma first_match_unique rules p o1 o2 : first_match rules p o1 -> first_match rules p o2 -> o1 = o2.
  Proof. intros H. revert o2. induction H; intros o2 H2; inversion H2; subst; try reflexivity; try contradiction. now apply IHfirst_match. Qed.

  Lemma plain_entries rules reg : rules_ok reg rules -> (forall r, In r rules -> is_ok (rule_actions r) = true) ->
    exists es, all_entries None rules = Ok es /\ (forall e, In e es -> entry_ok (fst e)) /\ List.length es = List.length rules /\
    forall p, prescribes rules p (first_entry es p).
  Proof.
    intros H A. unfold all_entries.
    assert (P : forall rules acc, rules_ok reg rules -> (forall r, In r rules -> is_ok (rule_actions r) = true) ->
      exists es, rfold (fun es r => do e <- rule_entries None r; Ok (es ++ e)) rules acc = Ok (acc ++ es) /\
        (forall e, In e es -> entry_ok (fst e)) /\ List.length es = List.length rules /\ forall p, prescribes rules p (first_entry es p)).
    2:{ destruct (P rules [] H A) as (es & E & Q). exists es. split; [exact E|exact Q]. }
    clear. induction rules as [|r rules IH]; intros acc H A.
    - exists []. rewrite app_nil_r. split; [reflexivity|]. split; [intros e []|]. split; [reflexivity|]. intros p. left. split; [constructor|reflexivity].
    - destruct (rule_wc_ok reg r) as (w & Ew & Ww & Aw); [apply H; now left|].
      assert (Ar := A r (or_introl eq_refl)). destruct (rule_actions r) as [d|e] eqn:Ed; [|discriminate Ar].
      destruct (IH (acc ++ [(w, d)])) as (es & E & W & L & Q); [intros x Hx; apply H; now right|intros x Hx; apply A; now right|].
      exists ((w, d) :: es). cbn [rfold]. unfold rule_entries at 1. rewrite Ed, Ew. cbn [rbind]. split; [rewrite E, <- app_assoc; reflexivity|].
      split; [intros e [<-|He]; [right; exact Ww|auto]|]. split; [cbn; lia|].
      intros p. unfold first_entry. cbn [find fst]. destruct (acceptsb w p) eqn:Ep.
      + right. exists r, d. split; [constructor; now apply Aw|]. split; [auto|reflexivity].
      + assert (Nr : ~ rule_accepts r p) by (intros Hr; apply Aw in Hr; congruence).
        destruct (Q p) as [[Q1 Q2]|(x & d' & Q1 & Q2 & Q3)].
        * left. split; [now constructor|exact Q2].
        * right. exists x, d'. split; [now constructor|]. split; auto.
  Qed.
  Lemma prescribes_unique rules p o1 o2 : prescribes rules p o1 -> prescribes rules p o2 -> o1 = o2.
  Proof.
    intros [[H1 ->]|(r1 & d1 & H1 & A1 & ->)] [[H2 ->]|(r2 & d2 & H2 & A2 & ->)]; assert (E := first_match_unique _ _ _ _ H1 H2); congruence.
  Qed.

  Lemma naive_first_match reg rules acts : rules_ok reg rules -> (forall r, In r rules -> is_ok (rule_actions r) = true) ->
    one_table rules = true -> NoDup acts ->
    exists acts' b f, normalise_naive SHIFT None acts rules = Ok (acts', b) /\ (exists ext, acts' = acts ++ ext) /\ NoDup acts' /\
      sem acts' b f /\ forall p, prescribes rules p (f p).
  Proof using shift_pos shift_even.
    intros H A T N. destruct (plain_entries rules reg H A) as (es & E & W & _ & Q).
    destruct (normalise_naive SHIFT None acts rules) as [[acts' b]|e] eqn:En.
    2:{ rewrite naive_eq, T, E in En. discriminate En. }
    destruct (naive_sem None _ _ _ _ _ E W N En) as (X & N' & S'). exists acts', b, (first_entry es).
    split; [reflexivity|]. split; [exact X|]. split; [auto|]. split; auto.
  Qed.
  Lemma naive_err_actions rules acts r e : In r rules -> rule_actions r = Err e -> is_ok (normalise_naive SHIFT None acts rules) = false.
  Proof.
    intros Hin E. rewrite naive_eq. destruct (one_table rules); [|reflexivity]. unfold all_entries. generalize (@nil (Z * po_value)).
    induction rules as [|x rules IH]; intros acc; [destruct Hin|]. cbn [rfold]. destruct Hin as [->|Hin].
    - unfold rule_entries at 1. rewrite E. reflexivity.
    - destruct (rule_entries None x) as [es|]; cbn [rbind]; [now apply IH|reflexivity].
  Qed.
  Lemma dc_agrees reg rules acts : rules_ok reg rules -> (forall r, In r rules -> is_ok (rule_actions r) = true) -> rules <> [] -> NoDup acts ->
    normalise_dc SHIFT None acts rules = normalise_naive SHIFT None acts rules.
  Proof using shift_pos shift_even.
    intros H A Ne N. destruct (plain_entries rules reg H A) as (es & E & W & L & Q). apply (dc_sem None _ _ es); auto.
    intros ->. destruct rules; [congruence|discriminate L].
  Qed.

  Lemma check_equal_decides2 reg reg2 A B acts a1 ba a2 bb : rules_ok reg A -> rules_ok reg2 B -> NoDup acts ->
    normalise_naive SHIFT None acts A = Ok (a1, ba) -> normalise_naive SHIFT None a1 B = Ok (a2, bb) ->
    (check_equal_exact ba bb = true <-> forall p o, prescribes A p o <-> prescribes B p o).
  Proof using shift_pos shift_even.
    intros HA HB N EA EB.
    assert (AA : forall r, In r A -> is_ok (rule_actions r) = true).
    { intros r Hr. destruct (rule_actions r) as [d|e] eqn:E; [reflexivity|]. assert (X := naive_err_actions A acts r e Hr E). rewrite EA in X. discriminate X. }
    assert (AB : forall r, In r B -> is_ok (rule_actions r) = true).
    { intros r Hr. destruct (rule_actions r) as [d|e] eqn:E; [reflexivity|]. assert (X := naive_err_actions B a1 r e Hr E). rewrite EB in X. discriminate X. }
    destruct (plain_entries A reg HA AA) as (ea & Ea & Wa & _ & Qa). destruct (plain_entries B reg2 HB AB) as (eb & Eb & Wb & _ & Qb).
    destruct (naive_sem None _ _ _ _ _ Ea Wa N EA) as (_ & N1 & SA). destruct (naive_sem None _ _ _ _ _ Eb Wb N1 EB) as ([ext ->] & N2 & SB).
    apply sem_ext with (ext := ext) in SA. unfold check_equal_exact. destruct add_eq_dec as [->|NE].
    - split; [intros _|reflexivity]. intros p o. destruct SA as [_ SA], SB as [_ SB]. specialize (SA p). rewrite SB in SA.
      injection SA as SA. assert (E : first_entry eb p = first_entry ea p) by (destruct (first_entry eb p), (first_entry ea p); cbn in SA; congruence).
      assert (Pa := Qa p). assert (Pb := Qb p). split; intros P.
      + rewrite (prescribes_unique _ _ _ _ P Pa), <- E. auto.
      + rewrite (prescribes_unique _ _ _ _ P Pb), E. auto.
    - split; [discriminate|]. intros H. elim NE. apply (sem_unique (a1 ++ ext) ba bb (first_entry ea)); auto.
      destruct SB as [S1 S2]. split; [auto|]. intros p. rewrite S2. do 2 f_equal. apply (prescribes_unique B p); [apply Qb|apply H, Qa].
  Qed.
  Lemma check_equal_decides reg A B acts a1 ba a2 bb : rules_ok reg A -> rules_ok reg B -> NoDup acts ->
    normalise_naive SHIFT None acts A = Ok (a1, ba) -> normalise_naive SHIFT None a1 B = Ok (a2, bb) ->
    (check_equal_exact ba bb = true <-> forall p o, prescribes A p o <-> prescribes B p o).
  Proof using shift_pos shift_even. exact (check_equal_decides2 reg reg A B acts a1 ba a2 bb). Qed.
End Norm.

(** *** Grouping *)
Section Group.
  Context {N : Type}.
  Implicit Types l : list (N * add).
  Lemma split_equal_ok c l : forall eqs rest, split_equal c l = (eqs, rest) ->
    Permutation l (eqs ++ rest) /\ (forall o, In o eqs -> snd o = c) /\ (forall o, In o rest -> snd o <> c).
  Proof.
    induction l as [|o l IH]; intros eqs rest E; cbn [split_equal] in E.
    - injection E as <- <-. split; [constructor|]. split; intros o [].
    - destruct (split_equal c l) as [e' r'] eqn:E'. destruct (IH _ _ eq_refl) as (P & H1 & H2).
      unfold check_equal_exact in E. destruct (add_eq_dec c (snd o)) as [Ec|Ec]; injection E as <- <-.
      + split; [cbn; now constructor|]. split; [intros x [<-|Hx]; auto|auto].
      + split; [now apply Permutation_cons_app|]. split; [auto|]. intros x [<-|Hx]; [congruence|auto].
  Qed.
  (** Groups are non-empty, all members of a group are equal, members of different groups differ,
      and every input is in exactly one place. *)
  Inductive separate : list (list (N * add)) -> Prop :=
  | sep_nil : separate []
  | sep_cons c g gs : g <> [] -> (forall o, In o g -> snd o = c) -> (forall g' o, In g' gs -> In o g' -> snd o <> c) -> separate gs -> separate (g :: gs).
  Lemma group_loop_ok : forall fuel l, (List.length l <= fuel)%nat ->
    exists gs, group_loop fuel l = Ok gs /\ Permutation l (List.concat gs) /\ separate gs.
  Proof.
    induction fuel as [|n IH]; intros [|o l] L; try (exists []; split; [reflexivity|split; constructor]); [cbn in L; lia|].
    cbn [group_loop]. destruct (split_equal (snd o) l) as [eqs rest] eqn:E. destruct (split_equal_ok _ _ _ _ E) as (P & H1 & H2).
    destruct (IH rest) as (gs & Eg & Pg & Sg).
    - apply Permutation_length in P. rewrite app_length in P. cbn in L. lia.
    - rewrite Eg. exists ((o :: eqs) :: gs). split; [reflexivity|]. split.
      + cbn. constructor. rewrite P. now apply Permutation_app_head.
      + apply sep_cons with (c := snd o); [discriminate|intros x [<-|Hx]; auto| |auto].
        intros g' x Hg Hx. apply H2. apply (Permutation_in _ (Permutation_sym Pg)). apply in_concat. eauto.
  Qed.
End Group.

(** *** Paths *)
Section Paths.
  Context (SHIFT : Z).
  Hypothesis shift_pos : 0 < SHIFT.
  Hypothesis shift_even : SHIFT mod 2 = 0.
  Definition zero_one (b : add) : Prop := forall p, adenote b p = 0 \/ adenote b p = 1.
  Definition parts_at (parts : list (list core * add)) (p : packet) : list (list core) :=
    map fst (filter (fun x => negb (adenote (snd x) p =? 0)) parts).
  Definition path_of (o : option rule) : list core := match o with Some r => path r | None => [] end.

  Lemma different_BDD acts wc acts' b : hd_error acts = Some DIFFERENT -> entry_ok wc -> wc_BDD SHIFT acts wc DIFFERENT = (acts', b) ->
    acts' = acts /\ add_wf 0 b /\ forall p, adenote b p = if acceptsb wc p then 1 else 0.
  Proof using shift_pos shift_even.
    destruct acts as [|x acts]; [discriminate|]. intros [= ->] W. unfold wc_BDD. destruct (Z.eqb_spec wc 0) as [->|n].
    - intros [= <- <-]. split; [reflexivity|]. split; [exact Logic.I|]. intros p. rewrite acceptsb_0. reflexivity.
    - unfold action_id. cbn [index_of]. destruct tkey_eq_dec; [|congruence]. intros [= <- <-].
      destruct W as [W|W]; [contradiction|]. destruct (cudd_wc_ok SHIFT wc 1 shift_pos shift_even W ltac:(lia)) as [H5 H6].
      split; [reflexivity|]. split; [auto|]. intros p. destruct (H6 p) as [H7 H8]. destruct (acceptsb wc p) eqn:Ep.
      + apply acceptsb_spec in Ep. auto.
      + apply H8. intros Ha. apply acceptsb_spec in Ha. congruence.
  Qed.

  Lemma collect_eq acts remaining rules done : collect SHIFT acts remaining rules done =
    match rules with
    | [] => Ok (acts, if add_eq_dec remaining BK then done else done ++ [([], remaining)])
    | r :: t =>
      if negb (table (rcore r) =? 0) then Err AssertionError else
      do wc <- rule_wc r;
      let (acts', rb) := wc_BDD SHIFT acts wc DIFFERENT in
      let inter := addApply addIntersection remaining rb in
      let '(remaining', done') :=
        if add_eq_dec inter BK then (remaining, done)
        else (addApply addDifference remaining inter, done ++ [(path r, inter)]) in
      if add_eq_dec remaining' BK then Ok (acts', if add_eq_dec remaining' BK then done' else done' ++ [([], remaining')])
      else collect SHIFT acts' remaining' t done'
    end.
  Proof. destruct rules; reflexivity. Qed.

  Lemma parts_at_app p a b : parts_at (a ++ b) p = parts_at a p ++ parts_at b p.
  Proof. unfold parts_at. now rewrite filter_app, map_app. Qed.
  (** Rules with equal paths accept the same packets, and no path is empty. *)
  Definition paths_tell (rules : list rule) : Prop :=
    (forall r, In r rules -> path r <> []) /\
    forall r1 r2, In r1 rules -> In r2 rules -> path_eqb (path r1) (path r2) = true -> forall p, rule_accepts r1 p <-> rule_accepts r2 p.
  Definition distinct_keys (parts : list (list core * add)) : Prop := ForallOrdPairs (fun x y => path_eqb (fst x) (fst y) = false) parts.

  Lemma tell_tail r rules : paths_tell (r :: rules) -> paths_tell rules.
  Proof. intros [H1 H2]. split; [intros x Hx; apply H1; now right|intros x y Hx Hy; apply H2; now right]. Qed.
  Lemma first_match_in rules p r : first_match rules p (Some r) -> In r rules /\ rule_accepts r p.
  Proof. remember (Some r) as o. intros H. induction H; [discriminate|injection Heqo as ->; split; [now left|auto]|]. destruct (IHfirst_match Heqo). split; [now right|auto]. Qed.

  (** What one call returns. [done] collects; the new parts split the packets of [remaining]
      among the first matching rules; every part is non-empty and two parts of rules with
      equal paths do not both occur (provided equal paths come with equal matches). *)
  Lemma collect_ok reg acts : hd_error acts = Some DIFFERENT -> forall rules remaining done,
    rules_ok reg rules -> (forall r, In r rules -> table (rcore r) = 0) -> add_wf 0 remaining -> zero_one remaining ->
    exists parts, collect SHIFT acts remaining rules done = Ok (acts, done ++ parts) /\
      (forall x, In x parts -> add_wf 0 (snd x) /\ zero_one (snd x) /\ exists p, adenote (snd x) p <> 0) /\
      (forall p, adenote remaining p = 0 -> parts_at parts p = []) /\
      (forall p o, adenote remaining p <> 0 -> first_match rules p o -> parts_at parts p = [path_of o]) /\
      (paths_tell rules -> distinct_keys parts).
  Proof using shift_pos shift_even.
    intros Ha. induction rules as [|r rules IH]; intros remaining done H T W B; rewrite collect_eq.
    - destruct (add_eq_dec remaining BK) as [->|NE].
      + exists []. rewrite app_nil_r. split; [reflexivity|]. split; [intros x []|]. split; [reflexivity|]. split; [|intros _; constructor].
        intros p o Hp. now elim Hp.
      + exists [([], remaining)]. split; [reflexivity|]. split; [intros x [<-|[]]; cbn; split; [auto|split; [auto|now apply nonBK_witness]]|].
        split; [intros p Hp; unfold parts_at; cbn [filter snd]; now rewrite Hp|]. split; [|intros _; repeat constructor].
        intros p o Hp Hf. inversion Hf; subst. unfold parts_at. cbn [filter snd]. destruct (Z.eqb_spec (adenote remaining p) 0); [contradiction|reflexivity].
    - rewrite (T r (or_introl eq_refl)). cbn [Z.eqb negb].
      destruct (rule_wc_ok reg r) as (w & Ew & Ww & Aw); [apply H; now left|]. rewrite Ew. cbn [rbind].
      destruct (wc_BDD SHIFT acts w DIFFERENT) as [acts' rb] eqn:Eb. destruct (different_BDD _ _ _ _ Ha (or_intror Ww) Eb) as (-> & Wr & Dr).
      set (inter := addApply addIntersection remaining rb) in *.
      assert (Wi : add_wf 0 inter) by now apply ainter_wf.
      assert (Di : forall p, adenote inter p = if acceptsb w p then adenote remaining p else 0).
      { intros p. unfold inter. rewrite ainter_denote, Dr. unfold z_intersection. destruct (B p) as [E|E]; rewrite E; destruct (acceptsb w p); reflexivity. }
      assert (Miss : forall p, acceptsb w p = false -> ~ rule_accepts r p) by (intros p Hp Hr; apply Aw in Hr; congruence).
      assert (Hrs : rules_ok reg rules) by (intros x Hx; apply H; now right).
      assert (Ht : forall x, In x rules -> table (rcore x) = 0) by (intros x Hx; apply T; now right).
      destruct (add_eq_dec inter BK) as [Ei|Ei].
      + (* nothing left of this rule *)
        assert (Z0 : forall p, acceptsb w p = true -> adenote remaining p = 0).
        { intros p Hp. specialize (Di p). rewrite Ei, Hp in Di. cbn in Di. congruence. }
        destruct (add_eq_dec remaining BK) as [->|NE].
        * exists []. rewrite app_nil_r. split; [reflexivity|]. split; [intros x []|]. split; [reflexivity|]. split; [|intros _; constructor]. intros p o Hp. now elim Hp.
        * destruct (IH remaining done Hrs Ht W B) as (parts & E & P1 & P2 & P3 & P4). exists parts. split; [exact E|]. split; [exact P1|]. split; [exact P2|]. split.
          -- intros p o Hp Hf. destruct (acceptsb w p) eqn:Ep; [elim Hp; auto|]. inversion Hf; subst; [elim (Miss p Ep); auto|]. now apply P3.
          -- intros PT. apply P4, (tell_tail r), PT.
      + assert (Dd : forall p, adenote (addApply addDifference remaining inter) p = if acceptsb w p then 0 else adenote remaining p).
        { intros p. rewrite adiff_exact; auto.
          - rewrite Di. destruct (acceptsb w p); [now rewrite Z.eqb_refl|]. destruct (B p) as [E|E]; rewrite E; reflexivity.
          - intros q Hq. rewrite Di, Hq. now destruct (acceptsb w q). }
        set (rem := addApply addDifference remaining inter) in *.
        assert (Wd : add_wf 0 rem) by now apply adiff_wf.
        assert (Bd : zero_one rem) by (intros p; apply adiff_bool).
        assert (Bi : zero_one inter) by (intros p; rewrite Di; destruct (acceptsb w p); auto).
        assert (Fin : exists parts, (if add_eq_dec rem BK then Ok (acts, if add_eq_dec rem BK then done ++ [(path r, inter)] else (done ++ [(path r, inter)]) ++ [([], rem)])
                  else collect SHIFT acts rem rules (done ++ [(path r, inter)])) = Ok (acts, (done ++ [(path r, inter)]) ++ parts) /\
          (forall x, In x parts -> add_wf 0 (snd x) /\ zero_one (snd x) /\ exists p, adenote (snd x) p <> 0) /\
          (forall p, adenote rem p = 0 -> parts_at parts p = []) /\
          (forall p o, adenote rem p <> 0 -> first_match rules p o -> parts_at parts p = [path_of o]) /\
          (paths_tell rules -> distinct_keys parts)).
        { destruct (add_eq_dec rem BK) as [Er|Er].
          - exists []. rewrite app_nil_r. split; [reflexivity|]. split; [intros x []|]. split; [reflexivity|]. split; [|intros _; constructor].
            intros p o Hp. rewrite Er in Hp. now elim Hp.
          - apply IH; auto. }
        destruct Fin as (parts & E & P1 & P2 & P3 & P4). exists ((path r, inter) :: parts).
        split; [rewrite E, <- app_assoc; reflexivity|]. split.
        { intros x [<-|Hx]; [|auto]. cbn [snd]. split; [auto|]. split; [auto|]. now apply nonBK_witness. }
        assert (Pa : forall p, parts_at ((path r, inter) :: parts) p = (if adenote inter p =? 0 then [] else [path r]) ++ parts_at parts p).
        { intros p. unfold parts_at. cbn [filter snd]. destruct (adenote inter p =? 0); reflexivity. }
        split; [|split].
        * intros p Hp. rewrite Pa, Di, Hp, P2; [destruct (acceptsb w p); reflexivity|]. rewrite Dd, Hp. now destruct (acceptsb w p).
        * intros p o Hp Hf. rewrite Pa, Di. inversion Hf; subst.
          -- assert (Ep : acceptsb w p = true) by now apply Aw. rewrite Ep. rewrite P2 by now rewrite Dd, Ep.
             destruct (Z.eqb_spec (adenote remaining p) 0); [contradiction|reflexivity].
          -- destruct (acceptsb w p) eqn:Ep; [exfalso; apply Aw in Ep; contradiction|]. cbn [Z.eqb app]. apply P3; [now rewrite Dd, Ep|auto].
        * intros PT. constructor; [|apply P4, (tell_tail r), PT]. apply Forall_forall. intros x Hx. cbn [fst].
          destruct (path_eqb (path r) (fst x)) eqn:Ek; [exfalso|reflexivity].
          destruct (P1 x Hx) as (_ & _ & p & Hp). assert (Hin : In (fst x) (parts_at parts p)).
          { unfold parts_at. apply in_map. apply filter_In. split; [auto|]. destruct (Z.eqb_spec (adenote (snd x) p) 0); [contradiction|reflexivity]. }
          destruct (Z.eq_dec (adenote rem p) 0) as [Er|Er]; [rewrite (P2 p Er) in Hin; destruct Hin|].
          destruct (first_match_total reg rules p Hrs) as [o Ho]. rewrite (P3 p o Er Ho) in Hin. destruct Hin as [Hin|[]].
          rewrite <- Hin in Ek. destruct PT as [T1 T2]. destruct o as [r2|].
          -- cbn [path_of] in Ek. destruct (first_match_in _ _ _ Ho) as [Hi Hacc].
             apply (T2 r r2 (or_introl eq_refl) (or_intror Hi) Ek), Aw in Hacc. rewrite Dd, Hacc in Er. now apply Er.
          -- cbn [path_of] in Ek. specialize (T1 r (or_introl eq_refl)). destruct (path r); [congruence|discriminate Ek].
  Qed.

  Lemma collect_paths_ok reg acts b rules : hd_error acts = Some DIFFERENT -> rules_ok reg rules -> (forall r, In r rules -> table (rcore r) = 0) ->
    add_wf 0 b -> zero_one b -> exists parts, collect_paths SHIFT acts b rules = Ok (acts, parts) /\
      (forall x, In x parts -> add_wf 0 (snd x) /\ zero_one (snd x) /\ exists p, adenote (snd x) p <> 0) /\
      (forall p, adenote b p = 0 -> parts_at parts p = []) /\
      (forall p o, adenote b p <> 0 -> first_match rules p o -> parts_at parts p = [path_of o]) /\
      (paths_tell rules -> distinct_keys parts).
  Proof using shift_pos shift_even. intros. apply (collect_ok reg acts H rules b []); auto. Qed.

  Lemma parts_at_in parts p k : In k (parts_at parts p) <-> exists x, In x parts /\ fst x = k /\ adenote (snd x) p <> 0.
  Proof.
    unfold parts_at. rewrite in_map_iff. split.
    - intros (x & E & Hx). apply filter_In in Hx as [Hx Hp]. exists x. destruct (Z.eqb_spec (adenote (snd x) p) 0); [discriminate|auto].
    - intros (x & Hx & E & Hp). exists x. split; [auto|]. apply filter_In. split; [auto|]. destruct (Z.eqb_spec (adenote (snd x) p) 0); [contradiction|reflexivity].
  Qed.

  Lemma pd_set_new {V} (d : list (list core * V)) k v : (forall x, In x d -> path_eqb (fst x) k = false) -> pd_set d k v = d ++ [(k, v)].
  Proof.
    induction d as [|[k' v'] d IH]; intros H; cbn [pd_set]; [reflexivity|]. assert (E := H (k', v') (or_introl eq_refl)). cbn [fst] in E. rewrite E.
    cbn. f_equal. apply IH. intros x Hx. apply H. now right.
  Qed.
  Lemma conflicts_ok reg acts new : hd_error acts = Some DIFFERENT -> rules_ok reg new -> (forall r, In r new -> table (rcore r) = 0) ->
    forall parts res, (forall x, In x parts -> add_wf 0 (snd x) /\ zero_one (snd x)) -> distinct_keys parts ->
    (forall x y, In x res -> In y parts -> path_eqb (fst x) (fst y) = false) ->
    exists res', conflicts SHIFT acts parts new res = Ok (acts, res ++ res') /\
      Forall2 (fun x y => fst y = fst x /\ forall Q, In Q (snd y) <-> exists p o, adenote (snd x) p <> 0 /\ first_match new p o /\ Q = path_of o) parts res'.
  Proof using shift_pos shift_even.
    intros Ha Hn Tn. induction parts as [|[k b] parts IH]; intros res W D X; cbn [conflicts].
    - exists []. rewrite app_nil_r. split; [reflexivity|constructor].
    - destruct (W (k, b) (or_introl eq_refl)) as [W1 W2]. cbn [snd] in W1, W2.
      destruct (collect_paths_ok reg acts b new Ha Hn Tn W1 W2) as (ps & E & P1 & P2 & P3 & _). rewrite E. cbn [rbind fst snd].
      inversion D as [|? ? D1 D2 E1]; subst. rewrite pd_set_new by (intros x Hx; apply (X x (k, b)); [auto|now left]).
      destruct (IH (res ++ [(k, map fst ps)])) as (res' & E' & F).
      + intros x Hx. apply W. now right.
      + exact D2.
      + intros x y Hx Hy. apply in_app_iff in Hx as [Hx|[<-|[]]]; [apply X; [auto|now right]|].
        rewrite Forall_forall in D1. apply (D1 y Hy).
      + exists ((k, map fst ps) :: res'). rewrite <- app_assoc in E'. split; [exact E'|]. constructor; [|exact F]. cbn [fst snd]. split; [reflexivity|].
        intros Q. split.
        * intros HQ. apply in_map_iff in HQ as (x & Ex & Hx). destruct (P1 x Hx) as (_ & _ & p & Hp). exists p.
          assert (HQ : In Q (parts_at ps p)) by (apply parts_at_in; eauto).
          destruct (Z.eq_dec (adenote b p) 0) as [Eb|Eb]; [rewrite (P2 p Eb) in HQ; destruct HQ|].
          destruct (first_match_total reg new p Hn) as [o Ho]. exists o. split; [auto|]. split; [auto|].
          rewrite (P3 p o Eb Ho) in HQ. destruct HQ as [HQ|[]]. auto.
        * intros (p & o & Hp & Ho & ->). assert (HQ : In (path_of o) (parts_at ps p)) by (rewrite (P3 p o Hp Ho); now left).
          apply parts_at_in in HQ as (x & Hx & Ex & _). rewrite <- Ex. now apply in_map.
  Qed.

  Lemma find_conflicting_ok reg acts diff orig new : hd_error acts = Some DIFFERENT -> rules_ok reg orig -> rules_ok reg new ->
    (forall r, In r orig -> table (rcore r) = 0) -> (forall r, In r new -> table (rcore r) = 0) ->
    add_wf 0 diff -> zero_one diff -> paths_tell orig ->
    exists res, find_conflicting_paths SHIFT acts diff orig new true = Ok (acts, res) /\
      ForallOrdPairs (fun x y => path_eqb (fst x) (fst y) = false) res /\
      forall P Q, (exists Qs, In (P, Qs) res /\ In Q Qs) <->
        exists p o o', adenote diff p <> 0 /\ first_match orig p o /\ first_match new p o' /\ P = path_of o /\ Q = path_of o'.
  Proof using shift_pos shift_even.
    intros Ha Ho Hn To Tn W B PT. unfold find_conflicting_paths.
    destruct (collect_paths_ok reg acts diff orig Ha Ho To W B) as (parts & E & P1 & P2 & P3 & P4). rewrite E. cbn [rbind fst snd].
    specialize (P4 PT).
    destruct (conflicts_ok reg acts new Ha Hn Tn parts []) as (res & Er & F); [intros x Hx; destruct (P1 x Hx) as (? & ? & _); auto|auto|intros x y []|].
    exists res. split; [exact Er|]. split.
    - clear - P4 F. induction F as [|x y parts res [E _] F IH]; [constructor|]. inversion P4 as [|? ? D1 D2 E1]; subst. constructor; [|auto].
      rewrite E. clear - D1 F. induction F as [|a b l m [E' _] F IH]; constructor; inversion D1; subst; auto. now rewrite E'.
    - intros P Q. split.
      + intros (Qs & HP & HQ).
        assert (X : exists x, In x parts /\ P = fst x /\ (forall Q, In Q Qs <-> exists p o, adenote (snd x) p <> 0 /\ first_match new p o /\ Q = path_of o)).
        { clear - F HP. induction F as [|x y parts res [E1 E2] F IH]; [destruct HP|]. destruct HP as [->|HP].
          - exists x. split; [now left|]. split; [exact E1|exact E2].
          - destruct (IH HP) as (z & Hz & R). exists z. split; [now right|exact R]. }
        destruct X as (x & Hx & -> & HQs). apply HQs in HQ as (p & o' & Hp & Ho' & ->).
        assert (HI : In (fst x) (parts_at parts p)) by (apply parts_at_in; eauto).
        destruct (Z.eq_dec (adenote diff p) 0) as [Ed|Ed]; [rewrite (P2 p Ed) in HI; destruct HI|].
        destruct (first_match_total reg orig p Ho) as [o Hof]. rewrite (P3 p o Ed Hof) in HI. destruct HI as [HI|[]].
        exists p, o, o'. auto.
      + intros (p & o & o' & Hp & Hof & Hnf & -> & ->). assert (HI : In (path_of o) (parts_at parts p)) by (rewrite (P3 p o Hp Hof); now left).
        apply parts_at_in in HI as (x & Hx & Ex & Hxp).
        assert (X : exists Qs, In (fst x, Qs) res /\ (forall Q, In Q Qs <-> exists p o, adenote (snd x) p <> 0 /\ first_match new p o /\ Q = path_of o)).
        { clear - F Hx. induction F as [|a y parts res [E1 E2] F IH]; [destruct Hx|]. destruct Hx as [->|Hx].
          - exists (snd y). split; [left; destruct y; cbn in *; congruence|exact E2].
          - destruct (IH Hx) as (Qs & Hz & R). exists Qs. split; [now right|exact R]. }
        destruct X as (Qs & X1 & X2). exists Qs. rewrite <- Ex. split; [auto|]. apply X2. eauto.
  Qed.
End Paths.

(** *** sort_ruleset *)
Lemma insert_rule_perm r l : Permutation (insert_rule r l) (r :: l).
Proof.
  induction l as [|x l IH]; cbn [insert_rule]; [reflexivity|]. destruct key_leb; [reflexivity|]. rewrite IH. apply perm_swap.
Qed.
Lemma sort_perm l : Permutation (sort_ruleset l) l.
Proof. induction l as [|r l IH]; [constructor|]. cbn [sort_ruleset fold_right]. fold (sort_ruleset l). rewrite insert_rule_perm. now constructor. Qed.
Lemma find_conflicting_sort SHIFT acts diff orig new :
  find_conflicting_paths SHIFT acts diff orig new false = find_conflicting_paths SHIFT acts diff (sort_ruleset orig) (sort_ruleset new) true.
Proof. reflexivity. Qed.
Lemma rules_ok_perm reg l l' : Permutation l l' -> rules_ok reg l -> rules_ok reg l'.
Proof. intros P H r Hr. apply H. apply (Permutation_in _ (Permutation_sym P)), Hr. Qed.
Definition key_le (a b : rule) : Prop :=
  table (rcore a) < table (rcore b) \/ (table (rcore a) = table (rcore b) /\ priority (rcore b) <= priority (rcore a)).
Lemma key_leb_spec a b : key_leb (sort_key a) (sort_key b) = true <-> key_le a b.
Proof. unfold key_leb, sort_key, key_le. cbn [fst snd]. rewrite orb_true_iff, andb_true_iff, Z.ltb_lt, Z.eqb_eq, Z.leb_le. lia. Qed.
Lemma key_le_trans a b c : key_le a b -> key_le b c -> key_le a c.
Proof. unfold key_le. lia. Qed.
Lemma key_leb_false a b : key_leb (sort_key a) (sort_key b) = false -> key_le b a /\ sort_key a <> sort_key b.
Proof.
  intros E. assert (N : ~ key_le a b) by (rewrite <- key_leb_spec; congruence). unfold key_le in *. split; [lia|].
  unfold sort_key. intros [= E1 E2]. lia.
Qed.
Lemma insert_sorted r l : StronglySorted key_le l -> StronglySorted key_le (insert_rule r l).
Proof.
  induction 1 as [|x l S IH F]; cbn [insert_rule]; [constructor; constructor|]. destruct (key_leb (sort_key r) (sort_key x)) eqn:E.
  - apply key_leb_spec in E. constructor; [now constructor|]. constructor; [auto|]. eapply Forall_impl; [|exact F]. intros a Ha. eapply key_le_trans; eauto.
  - apply key_leb_false in E as [E _]. constructor; [auto|]. apply Forall_forall. intros a Ha.
    apply (Permutation_in _ (insert_rule_perm r l)) in Ha as [<-|Ha]; [auto|]. rewrite Forall_forall in F. auto.
Qed.
Lemma sort_sorted l : StronglySorted key_le (sort_ruleset l).
Proof. induction l as [|r l IH]; [constructor|]. cbn. now apply insert_sorted. Qed.
Lemma sort_stable l t pr : filter (fun r => (table (rcore r) =? t) && (priority (rcore r) =? pr)) (sort_ruleset l) =
  filter (fun r => (table (rcore r) =? t) && (priority (rcore r) =? pr)) l.
Proof.
  set (f := fun r => _). induction l as [|r l IH]; [reflexivity|]. cbn [sort_ruleset fold_right]. fold (sort_ruleset l).
  assert (I : forall m, filter f (insert_rule r m) = if f r then r :: filter f m else filter f m).
  { induction m as [|x m IHm]; cbn [insert_rule filter]; [reflexivity|]. destruct (key_leb (sort_key r) (sort_key x)) eqn:E; [reflexivity|].
    cbn [filter]. rewrite IHm. destruct (f x) eqn:Fx, (f r) eqn:Fr; try reflexivity. exfalso.
    apply key_leb_false in E as [_ E]. apply E. unfold f in Fx, Fr. apply andb_true_iff in Fx as [A1 A2], Fr as [A3 A4].
    rewrite Z.eqb_eq in *. unfold sort_key. congruence. }
  rewrite I, IH. reflexivity.
Qed.
