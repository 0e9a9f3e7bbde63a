(** The invariant of the CUDD reference counts (proofs for C84, C85). *)
From Verif Require Import SpecBdd BddProofs CuddProofs BddApi CuddRefs SpecCuddRefs.
From Coq Require Import Permutation Lia ZifyBool ZifyNat.
Local Open Scope list_scope.
Local Open Scope Z_scope.
Local Opaque NB.

Lemma add_eqb_refl f : add_eqb f f = true. Proof. unfold add_eqb. now destruct add_eq_dec. Qed.
Lemma in_add_refl f : in_add f f = true. Proof. destruct f; cbn [in_add]; now rewrite add_eqb_refl. Qed.
Lemma protected_in s f : In f (crefs s) -> protected_b s f = true.
Proof. intros H. unfold protected_b. apply orb_true_iff. right. apply existsb_exists. exists f. split; [auto|apply in_add_refl]. Qed.
Lemma protected_BK s : protected_b s BK = true.
Proof. unfold protected_b. now rewrite add_eqb_refl. Qed.
Lemma protected_child s i T E : In (ANode i T E) (crefs s) -> protected_b s T = true /\ protected_b s E = true.
Proof.
  intros H. unfold protected_b. split; apply orb_true_iff; right; apply existsb_exists; exists (ANode i T E);
    (split; [auto|]); cbn [in_add]; rewrite in_add_refl, ?orb_true_r; reflexivity.
Qed.
Lemma ref_fresh s f : cfresh s = Some f -> api_ref f s = CFine (with_crefs s (f :: crefs s)).
Proof. intros H. unfold api_ref. now rewrite H, in_add_refl, orb_true_r. Qed.
Lemma ref_protected s f : protected_b s f = true -> api_ref f s = CFine (with_crefs s (f :: crefs s)).
Proof. intros H. unfold api_ref. now rewrite H. Qed.
Lemma remove_one_perm f l : In f l -> exists l', remove_one f l = Some l' /\ Permutation l (f :: l').
Proof.
  induction l as [|x t IH]; cbn [remove_one]; [contradiction|]. intros H. destruct add_eq_dec as [->|N].
  - exists t. auto.
  - destruct H as [->|H]; [contradiction|]. destruct (IH H) as [l' [E P]]. rewrite E. cbn. eexists. split; [reflexivity|].
    rewrite P. apply perm_swap.
Qed.

Definition same_but (s s' : cuddst) (l : list add) (o : list (option (option add))) : Prop := crefs s' = l /\ cobjs s' = o.
Lemma make_fine a s : exists s', bdd_make a s = CFine (AConst a, s') /\ crefs s' = AConst a :: crefs s /\ cobjs s' = cobjs s.
Proof.
  unfold bdd_make, api_const. cbn [cbind]. rewrite ref_fresh by reflexivity. cbn [cbind].
  eexists. rewrite encode_0. split; [reflexivity|]. cbn. auto.
Qed.
Lemma make_deref a s : exists s', bdd_make a s = CFine (AConst a, s') /\ api_deref (AConst a) s' = CFine (with_crefs s' (crefs s)) /\ cobjs s' = cobjs s.
Proof.
  destruct (make_fine a s) as [s' [E [R O]]]. exists s'. split; [auto|]. split; [|auto].
  unfold api_deref. rewrite R. cbn [remove_one]. now destruct add_eq_dec.
Qed.
Lemma wrap_fine f s : exists s', bdd_wrap f s = CFine s' /\ crefs s' = crefs s /\ cobjs s' = cobjs s ++ [Some (Some f)].
Proof.
  unfold bdd_wrap. destruct (make_deref 0 s) as [s' [E [D O]]]. rewrite E. cbn [cbind]. rewrite D. cbn [cbind].
  eexists. split; [reflexivity|]. cbn. now rewrite O.
Qed.

(** wc_to_BDD *)
Lemma wc_loop SHIFT wc l : forall f s, In f (crefs s) -> f <> BK ->
  exists s' L, fold_left (wc_ref_step SHIFT wc) l (CFine (f, s)) = CFine (fold_left (cudd_wc_step SHIFT wc) l f, s') /\
    crefs s' = L ++ crefs s /\ cobjs s' = cobjs s /\
    Permutation (L ++ nodes f) (nodes (fold_left (cudd_wc_step SHIFT wc) l f)) /\ fold_left (cudd_wc_step SHIFT wc) l f <> BK.
Proof.
  induction l as [|o l IH]; intros f s H N; cbn [fold_left].
  - exists s, []. auto.
  - assert (P := protected_in s f H). assert (B := protected_BK s).
    unfold wc_ref_step at 2. unfold cudd_wc_step at 2 4 6. cbn [cbind]. cbv zeta. unfold api_inter. rewrite P, B. cbn [andb].
    destruct (c_wc_bit SHIFT wc o =? 1); [|destruct (c_wc_bit SHIFT wc o =? 2)].
    + cbn [cbind]. rewrite ref_fresh by reflexivity. cbn [cbind]. set (g := ANode _ _ _).
      set (s1 := with_crefs _ _). destruct (IH g s1) as [s' [L [E [R [O [Q Z]]]]]]; [left; reflexivity|discriminate|].
      exists s', (L ++ [g]). rewrite E. split; [reflexivity|]. rewrite R, O, <- app_assoc. split; [reflexivity|]. split; [reflexivity|].
      split; [|auto]. rewrite <- Q, <- app_assoc. cbn. reflexivity.
    + cbn [cbind]. rewrite ref_fresh by reflexivity. cbn [cbind]. set (g := ANode _ _ _).
      set (s1 := with_crefs _ _). destruct (IH g s1) as [s' [L [E [R [O [Q Z]]]]]]; [left; reflexivity|discriminate|].
      exists s', (L ++ [g]). rewrite E. split; [reflexivity|]. rewrite R, O, <- app_assoc. split; [reflexivity|]. split; [reflexivity|].
      split; [|auto]. rewrite <- Q, <- app_assoc. cbn. rewrite app_nil_r. reflexivity.
    + exact (IH f s H N).
Qed.
Lemma nodes_split f : f <> BK -> nodes f = f :: nodes_below f.
Proof.
  destruct f as [v|]; [|reflexivity]. intros N. cbn. destruct (Z.eqb_spec v 0); [|reflexivity]. subst. now elim N.
Qed.
Lemma wc_fine SHIFT wc t s : t <> 0 -> exists s', bdd_wc SHIFT wc t s = CFine s' /\
  Permutation (crefs s') (cudd_wc_to_BDD SHIFT wc t :: nodes_below (cudd_wc_to_BDD SHIFT wc t) ++ crefs s) /\
  cobjs s' = cobjs s ++ [Some (Some (cudd_wc_to_BDD SHIFT wc t))].
Proof.
  intros Ht. unfold bdd_wc, cudd_wc_to_BDD. destruct (wc =? 0) eqn:Ew.
  - destruct (make_fine 0 s) as [s' [E [R O]]]. rewrite E. cbn [cbind]. eexists. split; [reflexivity|]. cbn. rewrite R, O. auto.
  - unfold api_const. cbn [cbind]. rewrite ref_fresh by reflexivity. cbn [cbind]. rewrite encode_0.
    set (s1 := with_crefs _ _).
    destruct (wc_loop SHIFT wc (seqZ (Z.to_nat NB)) (AConst t) s1) as [s' [L [E [R [O [Q Z]]]]]]; [left; reflexivity| |].
    { intros X. injection X. exact Ht. }
    rewrite E. cbn [cbind]. set (f := fold_left (cudd_wc_step _ _) _ _) in *.
    destruct (wrap_fine f s') as [s2 [E2 [R2 O2]]]. exists s2. split; [exact E2|]. rewrite R2, O2, R, O. split; [|reflexivity].
    cbn [crefs s1 with_crefs]. rewrite (nodes_split f Z) in Q. cbn [nodes] in Q. rewrite (proj2 (Z.eqb_neq t 0) Ht) in Q.
    change (f :: nodes_below f ++ crefs s) with ((f :: nodes_below f) ++ crefs s). rewrite <- Q, <- app_assoc. reflexivity.
Qed.
Lemma wc_fine0 SHIFT t s : exists s', bdd_wc SHIFT 0 t s = CFine s' /\
  Permutation (crefs s') (cudd_wc_to_BDD SHIFT 0 t :: nodes_below (cudd_wc_to_BDD SHIFT 0 t) ++ crefs s) /\
  cobjs s' = cobjs s ++ [Some (Some (cudd_wc_to_BDD SHIFT 0 t))].
Proof.
  unfold bdd_wc, cudd_wc_to_BDD. cbn [Z.eqb].
  destruct (make_fine 0 s) as [s' [E [R O]]]. rewrite E. cbn [cbind]. eexists. split; [reflexivity|]. cbn. rewrite R, O. auto.
Qed.

(** One leaked reference per exact bit. *)
Lemma wc_nodes_length SHIFT wc l : (forall o, In o l -> c_wc_bit SHIFT wc o = 1 \/ c_wc_bit SHIFT wc o = 2 \/ c_wc_bit SHIFT wc o = 3) -> forall f,
  List.length (nodes (fold_left (cudd_wc_step SHIFT wc) l f)) =
  (List.length (filter (fun o => negb (c_wc_bit SHIFT wc o =? 3)%Z) l) + List.length (nodes f))%nat.
Proof.
  induction l as [|o l IH]; intros H f; cbn [fold_left filter]; [reflexivity|].
  rewrite IH by (intros; apply H; now right). unfold cudd_wc_step. cbv zeta.
  destruct (H o (or_introl eq_refl)) as [->|[->| ->]]; cbn; rewrite ?app_nil_r; cbn; lia.
Qed.
Lemma wc_below_length SHIFT wc t : 0 < SHIFT -> SHIFT mod 2 = 0 -> wc_ok wc -> t <> 0 ->
  List.length (nodes_below (cudd_wc_to_BDD SHIFT wc t)) = exact_bits wc.
Proof.
  intros Hs He [Hr Hz] Ht. assert (W : wc <> 0).
  { intros ->. specialize (Hz 0 ltac:(rewrite NB_val; lia)). rewrite !Z.testbit_0_l in Hz. destruct Hz; discriminate. }
  assert (B : forall o, In o (seqZ (Z.to_nat NB)) -> (c_wc_bit SHIFT wc o = 1 \/ c_wc_bit SHIFT wc o = 2 \/ c_wc_bit SHIFT wc o = 3) /\
     negb (c_wc_bit SHIFT wc o =? 3) = negb (Z.testbit wc (2 * o) && Z.testbit wc (2 * o + 1))).
  { intros o Ho. apply in_seqZ in Ho. specialize (Hz o ltac:(lia)). rewrite c_wc_bit_spec, wc_bit_spec by (auto; lia).
    destruct (Z.testbit wc (2 * o)), (Z.testbit wc (2 * o + 1)); cbn; auto; destruct Hz; discriminate. }
  unfold cudd_wc_to_BDD. rewrite (proj2 (Z.eqb_neq wc 0) W), encode_0.
  assert (N : forall l f, f <> BK -> fold_left (cudd_wc_step SHIFT wc) l f <> BK).
  { induction l as [|o l IH]; intros f Hf; cbn [fold_left]; [auto|]. apply IH. unfold cudd_wc_step. cbv zeta.
    destruct (_ =? 1); [discriminate|]. destruct (_ =? 2); [discriminate|auto]. }
  assert (C : AConst t <> BK) by (intros X; injection X; exact Ht).
  pose proof (wc_nodes_length SHIFT wc (seqZ (Z.to_nat NB)) (fun o Ho => proj1 (B o Ho)) (AConst t)) as L.
  rewrite (nodes_split _ (N (seqZ (Z.to_nat NB)) _ C)) in L. rewrite (nodes_split _ C) in L. cbn [List.length nodes_below] in L.
  unfold exact_bits. rewrite <- (filter_ext_in _ _ _ (fun o Ho => proj2 (B o Ho))). lia.
Qed.

(** *** The objects *)
Lemma kroots_app a b : kroots (a ++ b) = kroots a ++ kroots b. Proof. apply flat_map_app. Qed.
Lemma split_at {X} i (l : list X) x : nth_error l i = Some x -> l = firstn i l ++ x :: skipn (S i) l.
Proof.
  revert l. induction i as [|i IH]; intros [|y t]; cbn; try discriminate.
  - now intros [= ->].
  - intros H. f_equal. now apply IH.
Qed.
Lemma kroot_in vs i f : kroot vs i = Some f -> nth_error vs i = Some (Some (Some f)) /\ In f (kroots vs).
Proof.
  unfold kroot. destruct (nth_error vs i) as [[[g|]|]|] eqn:E; intros [= <-]. split; [auto|].
  apply in_flat_map. exists (Some (Some g)). split; [now apply nth_error_In in E|now left].
Qed.
Lemma kput_perm vs i x v : nth_error vs i = Some x ->
  Permutation (kroots [x] ++ kroots (kput vs i v)) (kroots [v] ++ kroots vs).
Proof.
  intros H. unfold kput. rewrite (split_at _ _ _ H) at 3. rewrite !kroots_app.
  change (x :: skipn (S i) vs) with ([x] ++ skipn (S i) vs). change (v :: skipn (S i) vs) with ([v] ++ skipn (S i) vs).
  rewrite !kroots_app. set (a := kroots (firstn i vs)). set (b := kroots (skipn (S i) vs)). set (p := kroots [x]). set (q := kroots [v]).
  rewrite (Permutation_app_comm a (q ++ b)), (Permutation_app_comm a (p ++ b)), <- !app_assoc, !app_assoc.
  apply Permutation_app_tail, Permutation_app_tail, Permutation_app_comm.
Qed.

(** The references: one for DIFFERS, one per existing object, and the leaked ones. *)
Definition counted (s : cuddst) (L : list add) : Prop := Permutation (crefs s) (DIFFERS :: kroots (cobjs s) ++ L).
Lemma counted_root s L i f : counted s L -> kroot (cobjs s) i = Some f -> In f (crefs s).
Proof.
  intros C H. apply kroot_in in H as [_ H]. apply (Permutation_in f (Permutation_sym C)). right. apply in_or_app. now left.
Qed.
Lemma counted_new s s' L f leak : counted s L -> Permutation (crefs s') (f :: leak ++ crefs s) -> cobjs s' = cobjs s ++ [Some (Some f)] ->
  counted s' (L ++ leak).
Proof.
  intros C P O. unfold counted. rewrite O, kroots_app, P, C. cbn [kroots flat_map app].
  rewrite <- Permutation_middle. rewrite perm_swap. apply perm_skip.
  rewrite <- app_assoc. cbn [app]. rewrite <- Permutation_middle. apply perm_skip.
  rewrite Permutation_app_comm, app_assoc. reflexivity.
Qed.
Lemma kroot_of s i : root_of s i = kroot (cobjs s) i. Proof. reflexivity. Qed.

Lemma step_counted SHIFT s L c : counted s L -> kok (cobjs s) c -> exists s', k_step SHIFT s c = CFine s' /\
  cobjs s' = kval SHIFT (cobjs s) c /\ counted s' (L ++ kleak SHIFT (cobjs s) c).
Proof.
  intros C K. destruct c as [a| |i a|wc t|o a b|one i|i|i]; cbn [k_step kval kleak kok] in *.
  - destruct (make_fine a s) as [s' [E [R O]]]. rewrite E. cbn [cbind]. eexists. split; [reflexivity|]. cbn [with_cobjs cobjs]. rewrite O. split; [reflexivity|].
    apply (counted_new s _ L (AConst a) []); [exact C|cbn; rewrite R; reflexivity|cbn; rewrite ?O; reflexivity].
  - eexists. split; [reflexivity|]. split; [reflexivity|]. unfold counted, with_cobjs. cbn. rewrite kroots_app. cbn. rewrite !app_nil_r. exact C.
  - destruct K as [r K]. unfold bdd_reinit. destruct (make_fine a s) as [s' [E [R O]]]. rewrite E. cbn [cbind].
    eexists. split; [reflexivity|]. cbn [with_cobjs cobjs]. rewrite O. split; [reflexivity|].
    unfold counted. cbn [with_cobjs cobjs crefs]. rewrite ?O, R. unfold set_obj. fold (kput (cobjs s) i (Some (Some (AConst a)))).
    pose proof (kput_perm (cobjs s) i (Some r) (Some (Some (AConst a))) K) as P. cbn [kroots flat_map app] in P.
    fold (kroots (cobjs s)) in P. fold (kroots (kput (cobjs s) i (Some (Some (AConst a))))) in P.
    unfold kroot. rewrite K. rewrite C, perm_swap. apply perm_skip.
    destruct r as [f|]; cbn [app] in P.
    + change (AConst a :: kroots (cobjs s) ++ L) with ((AConst a :: kroots (cobjs s)) ++ L). rewrite <- P. cbn [app].
      rewrite app_assoc. apply Permutation_cons_append.
    + rewrite app_nil_r. change (AConst a :: kroots (cobjs s) ++ L) with ((AConst a :: kroots (cobjs s)) ++ L). now rewrite <- P.
  - assert (Q : exists s', bdd_wc SHIFT wc t s = CFine s' /\
      Permutation (crefs s') (cudd_wc_to_BDD SHIFT wc t :: nodes_below (cudd_wc_to_BDD SHIFT wc t) ++ crefs s) /\
      cobjs s' = cobjs s ++ [Some (Some (cudd_wc_to_BDD SHIFT wc t))]).
    { destruct K as [->|[_ K]]; [apply wc_fine0|now apply wc_fine]. }
    destruct Q as [s' [E [R O]]]. exists s'. split; [auto|]. split; [auto|]. exact (counted_new s s' L _ _ C R O).
  - destruct a as [i|]; [|contradiction]. destruct b as [j|]; [|contradiction]. destruct K as [Ki Kj].
    unfold bdd_binop, arg_root. rewrite !kroot_of. destruct (kroot (cobjs s) i) as [f|] eqn:Ei; [|congruence].
    destruct (kroot (cobjs s) j) as [g|] eqn:Ej; [|congruence].
    unfold api_apply. rewrite (protected_in s f), (protected_in s g) by (eapply counted_root; eauto). cbn [andb cbind].
    rewrite ref_fresh by reflexivity. cbn [cbind]. set (r := addApply _ f g). set (s1 := with_crefs _ _).
    destruct (wrap_fine r s1) as [s' [E [R O]]]. exists s'. split; [auto|]. rewrite O. split; [reflexivity|].
    apply (counted_new s s' L r []); auto. rewrite R. reflexivity.
  - destruct K as [r K]. unfold bdd_child. rewrite kroot_of. destruct (kroot (cobjs s) i) as [[v|n T E]|] eqn:Ei.
    + eexists. split; [reflexivity|]. split; [reflexivity|]. unfold counted, with_cobjs. cbn. rewrite kroots_app. cbn. rewrite !app_nil_r. exact C.
    + destruct (make_deref 0 s) as [s1 [E1 [D1 O1]]]. rewrite E1. cbn [cbind]. rewrite D1. cbn [cbind]. cbv zeta.
      set (c := if one then T else E). rewrite ref_protected.
      2:{ assert (H := counted_root s L i _ C Ei). destruct (protected_child (with_crefs s1 (crefs s)) n T E H). unfold c. destruct one; auto. }
      cbn [cbind]. eexists. split; [reflexivity|]. cbn [with_cobjs with_crefs cobjs crefs]. rewrite O1. split; [reflexivity|].
      apply (counted_new s _ L c []); [exact C|reflexivity|cbn; rewrite ?O1; reflexivity].
    + eexists. split; [reflexivity|]. split; [reflexivity|]. unfold counted, with_cobjs. cbn. rewrite kroots_app. cbn. rewrite !app_nil_r. exact C.
  - destruct K as [r K]. unfold bdd_drop. rewrite kroot_of. pose proof (kput_perm (cobjs s) i (Some r) None K) as P.
    cbn [kroots flat_map app] in P. fold (kroots (cobjs s)) in P. fold (kroots (kput (cobjs s) i None)) in P.
    destruct (kroot (cobjs s) i) as [f|] eqn:Ei.
    + assert (H := counted_root s L i f C Ei). apply remove_one_perm in H as [l [E Q]]. unfold api_deref. rewrite E. cbn [cbind].
      eexists. split; [reflexivity|]. split; [reflexivity|]. unfold counted. cbn [with_cobjs with_crefs cobjs crefs].
      unfold set_obj. fold (kput (cobjs s) i None). unfold counted in C. rewrite Q, <- P in C. unfold kroot in Ei. rewrite K in Ei. subst r.
      cbn [app] in C. rewrite perm_swap in C. apply Permutation_cons_inv in C. rewrite app_nil_r. exact C.
    + eexists. split; [reflexivity|]. split; [reflexivity|]. unfold counted. cbn [with_cobjs with_crefs cobjs crefs].
      unfold set_obj. fold (kput (cobjs s) i None). unfold kroot in Ei. rewrite K in Ei. subst r. cbn [app] in P. rewrite app_nil_r, P. exact C.
  - unfold bdd_read. rewrite kroot_of. destruct (kroot (cobjs s) i) as [f|] eqn:Ei; [|congruence].
    rewrite (protected_in s f (counted_root s L i f C Ei)). cbn [cbind]. exists s. rewrite app_nil_r. auto.
Qed.
Lemma run_counted SHIFT cs : forall s L, counted s L -> koks SHIFT (cobjs s) cs -> exists s', k_run SHIFT cs s = CFine s' /\
  cobjs s' = kvals SHIFT cs (cobjs s) /\ counted s' (L ++ kleaks SHIFT (cobjs s) cs).
Proof.
  induction cs as [|c cs IH]; intros s L C K; cbn [k_run kleaks kvals fold_left koks] in *.
  - exists s. rewrite app_nil_r. auto.
  - destruct K as [K Ks]. destruct (step_counted SHIFT s L c C K) as [s1 [E [O C1]]]. rewrite E. cbn [cbind].
    rewrite <- O in Ks. destruct (IH s1 _ C1 Ks) as [s' [E' [O' C']]]. exists s'. rewrite E', O', O. split; [auto|]. split; [reflexivity|].
    rewrite <- O. rewrite app_assoc. exact C'.
Qed.

(** *** The diagrams are ordered and reduced. *)
Definition kwf (vs : list (option (option add))) : Prop := forall f, In f (kroots vs) -> add_wf 0 f.
Lemma difference_op_wf f g r lo : addDifference f g = Some r -> add_wf lo f -> add_wf lo g -> add_wf lo r.
Proof.
  unfold addDifference. intros H _ _. destruct add_eq_dec; [injection H as <-; exact Logic.I|].
  destruct add_eq_dec; [injection H as <-; exact Logic.I|]. destruct (_ && _); [injection H as <-; exact Logic.I|discriminate].
Qed.
Lemma op_wf o f g : add_wf 0 f -> add_wf 0 g -> add_wf 0 (addApply (cudd_fun o) f g).
Proof.
  intros Hf Hg. apply addApply_wf; auto. intros a b r lo H. destruct o; cbn [cudd_fun] in H.
  - now apply (meld_op_wf _ _ _ _ H). - now apply (subtract_op_wf _ _ _ _ H). - now apply (difference_op_wf _ _ _ _ H).
  - now apply (tagged_op_wf _ _ _ _ H). - now apply (intersection_op_wf _ _ _ _ H).
Qed.
Lemma kwf_app vs v : kwf vs -> (forall f, v = Some (Some f) -> add_wf 0 f) -> kwf (vs ++ [v]).
Proof.
  intros H V f Hf. rewrite kroots_app in Hf. apply in_app_or in Hf as [Hf|Hf]; [now apply H|].
  destruct v as [[g|]|]; cbn in Hf; [|contradiction|contradiction]. destruct Hf as [->|[]]. now apply V.
Qed.
Lemma kwf_put vs i v : kwf vs -> (forall f, v = Some (Some f) -> add_wf 0 f) -> kwf (kput vs i v).
Proof.
  intros H V f Hf. unfold kput in Hf. apply in_flat_map in Hf as [x [Hx Hf]]. apply in_app_or in Hx as [Hx|[<-|Hx]].
  - apply H. apply in_flat_map. exists x. split; [|auto]. rewrite <- (firstn_skipn i). apply in_or_app. now left.
  - destruct v as [[g|]|]; cbn in Hf; [|contradiction|contradiction]. destruct Hf as [->|[]]. now apply V.
  - apply H. apply in_flat_map. exists x. split; [|auto]. rewrite <- (firstn_skipn (S i)). apply in_or_app. now right.
Qed.
Lemma kval_wf SHIFT vs c : 0 < SHIFT -> SHIFT mod 2 = 0 -> kwf vs -> kok vs c -> kwf (kval SHIFT vs c).
Proof.
  intros Hs He W K. destruct c as [a| |i a|wc t|o a b|one i|i|i]; cbn [kval kok] in *.
  - apply kwf_app; auto. intros f [= <-]. exact Logic.I.
  - apply kwf_app; auto. discriminate.
  - apply kwf_put; auto. intros f [= <-]. exact Logic.I.
  - apply kwf_app; auto. intros f [= <-]. destruct K as [->|[K Ht]]; [exact Logic.I|]. now apply cudd_wc_ok.
  - destruct a as [i|]; [|contradiction]. destruct b as [j|]; [|contradiction].
    destruct (kroot vs i) as [f|] eqn:Ei; [|auto]. destruct (kroot vs j) as [g|] eqn:Ej; [|auto].
    apply kwf_app; auto. intros r [= <-]. apply op_wf; apply W; [now apply kroot_in in Ei|now apply kroot_in in Ej].
  - apply kwf_app; auto. intros f Hf. destruct (kroot vs i) as [[v|n T E]|] eqn:Ei; try discriminate.
    apply kroot_in in Ei as [_ Ei]. apply W in Ei. cbn [add_wf] in Ei. injection Hf as <-. destruct one; apply (add_wf_mono (n + 1)); try lia; tauto.
  - apply kwf_put; auto. discriminate.
  - exact W.
Qed.
Lemma kvals_wf SHIFT cs : 0 < SHIFT -> SHIFT mod 2 = 0 -> forall vs, kwf vs -> koks SHIFT vs cs -> kwf (kvals SHIFT cs vs).
Proof.
  intros Hs He. induction cs as [|c cs IH]; intros vs W K; cbn [kvals fold_left koks] in *; [auto|].
  destruct K as [K Ks]. apply IH; [now apply kval_wf|exact Ks].
Qed.
