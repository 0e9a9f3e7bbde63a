(** Rules that compare equal do the same: rulesets of such rules forward alike. *)
From Coq Require Import Lia ZifyBool ZifyNat Permutation.
From Verif Require Import SpecPipeline FormatProofs MatchProofs ActionProofs ActionSetProofs InstProofs MergeProofs SingleTableProofs PriorityProofs PathProofs ExecProofs PerOutputProofs EagerProofs EagerSem NormaliseProofs PropNormalise PropMerge PropSingle.
Local Open Scope string_scope.
Local Open Scope list_scope.
Local Open Scope Z_scope.
Local Opaque NB WC_FULLWC layout oxm_fields registry_init.

(** rule.py:294-300: the rules of the two lists are equal, one by one *)
Definition equal_rules : list rule -> list rule -> Prop := Forall2 (fun a b => core_eqb (rcore a) (rcore b) = true).

Lemma core_eqb_parts a b : core_eqb a b = true -> priority a = priority b /\ cookie a = cookie b /\ match_eqb (rmatch a) (rmatch b) = true /\ inst_eqb (inst a) (inst b) = true /\ table a = table b.
Proof.
  unfold core_eqb. rewrite !andb_true_iff. intros ((((A & B) & C) & D) & E). apply Z.eqb_eq in A, E. split; [exact A|].
  split; [apply (opt_eqb_eq Z.eqb); [intros x y; apply Z.eqb_eq|exact B]|]. auto.
Qed.
Lemma inst_eqb_parts i j : inst_wf i -> inst_wf j -> inst_eqb i j = true -> goto_table i = goto_table j /\ clear_actions i = clear_actions j /\
  teq (orig_order (apply_actions i)) (orig_order (apply_actions j)) /\ weq (orig_order (write_actions i)) (orig_order (write_actions j)).
Proof.
  intros [Hi Wi] [Hj Wj] H. unfold inst_eqb in H. rewrite !andb_true_iff in H. destruct H as (((((G & _) & C) & A) & W) & _).
  split; [apply (opt_eqb_eq Z.eqb); [intros x y; apply Z.eqb_eq|exact G]|]. split; [now apply Bool.eqb_prop|]. split; [now apply (al_eqb_iff _ _ _ _ Hi Hj)|].
  intros a. destruct Wi as (Ai & _ & _ & Ii & _), Wj as (Aj & _ & _ & Ij & _). rewrite <- Ii, <- Ij. apply (al_eqb_iff _ _ _ _ Ai Aj) in W. apply ateq_perm in W.
  split; apply Permutation_in; [exact W|now apply Permutation_sym].
Qed.

Section Equal.
  Context (ra rb : registry) (A B : list rule).
  Context (HA : forall R, In R A -> match_ok ra (rmatch (rcore R)) /\ inst_wf (inst (rcore R))).
  Context (HB : forall R, In R B -> match_ok rb (rmatch (rcore R)) /\ inst_wf (inst (rcore R))).
  Context (E : equal_rules A B).

  Lemma equal_accepts a b : In a A -> In b B -> core_eqb (rcore a) (rcore b) = true -> forall p q, (forall i, p i = q i) -> (rule_accepts a p <-> rule_accepts b q).
  Proof.
    intros Ia Ib H p q Hp. apply core_eqb_parts in H as (_ & _ & M & _). assert (X := match_eqb_accepts _ _ _ _ (proj1 (HA a Ia)) (proj1 (HB b Ib)) M).
    split; intros Y.
    - apply X. now apply (maccepts_ext _ p).
    - apply X. apply (maccepts_ext _ q); [intros i; now rewrite Hp|exact Y].
  Qed.
  Lemma equal_split l1 r l2 : A = l1 ++ r :: l2 -> exists m1 s m2, B = m1 ++ s :: m2 /\ equal_rules l1 m1 /\ core_eqb (rcore r) (rcore s) = true /\ equal_rules l2 m2.
  Proof.
    intros ->. apply Forall2_app_inv_l in E as (m1 & m & F1 & F2 & ->). inversion F2 as [|? s ? m2 H F3]; subst. exists m1, s, m2. auto.
  Qed.
  Lemma equal_in_r (l m : list rule) : equal_rules l m -> forall s, In s m -> exists r, In r l /\ core_eqb (rcore r) (rcore s) = true.
  Proof. induction 1 as [|r s l m H F IH]; intros x []; [subst; exists r; split; [now left|exact H]|]. destruct (IH x H0) as (y & Y & Z0). exists y. split; [now right|exact Z0]. Qed.
  Lemma equal_in_l (l m : list rule) : equal_rules l m -> forall r, In r l -> exists s, In s m /\ core_eqb (rcore r) (rcore s) = true.
  Proof. induction 1 as [|r s l m H F IH]; intros x []; [subst; exists s; split; [now left|exact H]|]. destruct (IH x H0) as (y & Y & Z0). exists y. split; [now right|exact Z0]. Qed.
  Lemma equal_hit t p q r : (forall i, p i = q i) -> table_hit A t p r -> exists s, table_hit B t q s /\ In r A /\ In s B /\ core_eqb (rcore r) (rcore s) = true.
  Proof.
    intros Hp (l1 & l2 & EA & T & Ac & L1 & L2). destruct (equal_split l1 r l2 EA) as (m1 & s & m2 & EB & F1 & Es & F2).
    assert (Ir : In r A) by (rewrite EA; apply in_or_app; right; now left). assert (Is : In s B) by (rewrite EB; apply in_or_app; right; now left).
    destruct (core_eqb_parts _ _ Es) as (Pr & _ & _ & _ & Ta). exists s. split; [|auto]. exists m1, m2. split; [exact EB|]. split; [congruence|]. split; [exact (proj1 (equal_accepts r s Ir Is Es p q Hp) Ac)|].
    split; intros x Hx Tx Ax.
    - destruct (equal_in_r _ _ F1 x Hx) as (y & Hy & Ey). destruct (core_eqb_parts _ _ Ey) as (Py & _ & _ & _ & Ty). rewrite <- Pr, <- Py. apply L1; [exact Hy|congruence|].
      refine (proj2 (equal_accepts y x _ _ Ey p q Hp) Ax); [rewrite EA; apply in_or_app; now left|rewrite EB; apply in_or_app; now left].
    - destruct (equal_in_r _ _ F2 x Hx) as (y & Hy & Ey). destruct (core_eqb_parts _ _ Ey) as (Py & _ & _ & _ & Ty). rewrite <- Pr, <- Py. apply L2; [exact Hy|congruence|].
      refine (proj2 (equal_accepts y x _ _ Ey p q Hp) Ax); [rewrite EA; apply in_or_app; right; now right|rewrite EB; apply in_or_app; right; now right].
  Qed.
  Lemma equal_miss t p q : (forall i, p i = q i) -> table_miss A t p -> table_miss B t q.
  Proof.
    intros Hp M x Hx Tx Ax. destruct (equal_in_r _ _ E x Hx) as (y & Hy & Ey). destruct (core_eqb_parts _ _ Ey) as (_ & _ & _ & _ & Ty). apply (M y Hy); [congruence|].
    exact (proj2 (equal_accepts y x Hy Hx Ey p q Hp) Ax).
  Qed.
  Lemma equal_pipeline t p d ws miss app wr : pipeline A t p d ws miss app wr -> forall q d' ws', (forall i, p i = q i) -> teq d d' -> weq ws ws' ->
    exists app' wr', pipeline B t q d' ws' miss app' wr' /\ teq app app' /\ weq wr wr'.
  Proof.
    intros H. induction H as [t p d ws r t' miss app wr H G P IH|t p d ws r H G|t p d ws H]; intros q d' ws' Hp Hd Hw.
    - destruct (equal_hit t p q r Hp H) as (s & Hs & Ir & Is & Es). destruct (core_eqb_parts _ _ Es) as (_ & _ & _ & Ie & _).
      destruct (inst_eqb_parts _ _ (proj2 (HA r Ir)) (proj2 (HB s Is)) Ie) as (Gs & Cs & As & Ws).
      destruct (IH (inst_header (inst (rcore s)) q) (applied_after (inst (rcore s)) d') (writes_after (inst (rcore s)) ws')) as (app' & wr' & P' & X).
      + intros i. rewrite (header_ext _ p q i Hp). apply inst_eqb_header; [apply (HA r Ir)|apply (HB s Is)|exact Ie].
      + unfold applied_after. now apply ateq_app.
      + unfold writes_after. rewrite <- Cs. apply weq_app; [destruct (clear_actions (inst (rcore r))); [apply weq_refl|exact Hw]|exact Ws].
      + exists app', wr'. split; [|exact X]. apply (pl_goto B t q d' ws' s t' miss app' wr' Hs); [congruence|exact P'].
    - destruct (equal_hit t p q r Hp H) as (s & Hs & Ir & Is & Es). destruct (core_eqb_parts _ _ Es) as (_ & _ & _ & Ie & _).
      destruct (inst_eqb_parts _ _ (proj2 (HA r Ir)) (proj2 (HB s Is)) Ie) as (Gs & Cs & As & Ws).
      eexists _, _. split; [apply pl_stop; [exact Hs|congruence]|]. split; [unfold applied_after; now apply ateq_app|].
      unfold writes_after. rewrite <- Cs. apply weq_app; [destruct (clear_actions (inst (rcore r))); [apply weq_refl|exact Hw]|exact Ws].
    - exists d', ws'. split; [|auto]. apply pl_miss. now apply (equal_miss t p q).
  Qed.
  Lemma equal_executes drop p xs : executes drop A p xs -> exists ys, executes drop B p ys /\ teq xs ys.
  Proof.
    intros (miss & app & wr & o & P & S & ->). destruct (equal_pipeline _ _ _ _ _ _ _ P p [] [] (fun i => eq_refl) (te_refl _ _) (weq_refl _)) as (app' & wr' & P' & T & W).
    exists (app' ++ (if miss && drop then [] else o)). split; [|apply ateq_app; [exact T|apply te_refl]]. exists miss, app', wr', o. split; [exact P'|]. split; [|reflexivity]. now apply (set_list_weq wr).
  Qed.
End Equal.

Lemma match_eqb_sym ra rb a b : match_ok ra a -> match_ok rb b -> match_eqb a b = true -> match_eqb b a = true.
Proof.
  intros Ha Hb H. unfold match_eqb in *. apply andb_true_iff in H as [H1 H2]. apply andb_true_iff. split; [now rewrite Z.eqb_sym|]. assert (I := dict_eqb_in _ _ (proj1 Ha) (proj1 Hb) H2).
  unfold dict_eqb in *. apply andb_true_iff in H2 as [L _]. apply andb_true_iff. split; [now rewrite Nat.eqb_sym|]. apply forallb_forall. intros [k v] Hk. cbn [fst snd]. apply I in Hk.
  rewrite (dict_in_get _ _ _ (proj1 Ha) Hk). destruct v as [[v [m|]] i]; cbn; now rewrite !Z.eqb_refl.
Qed.
Lemma equal_sym A B : equal_rules A B -> forall ra rb, (forall R, In R A -> match_ok ra (rmatch (rcore R)) /\ inst_wf (inst (rcore R))) ->
  (forall R, In R B -> match_ok rb (rmatch (rcore R)) /\ inst_wf (inst (rcore R))) -> equal_rules B A.
Proof.
  intros E ra rb HA HB. induction E as [|a b A B H F IH]; constructor.
  - clear IH F. destruct (HA a (or_introl eq_refl)) as [Ma [Ia Wa]], (HB b (or_introl eq_refl)) as [Mb [Ib Wb]]. unfold core_eqb in *. rewrite !andb_true_iff in *. destruct H as ((((H1 & H2) & H3) & H4) & H5).
    apply Z.eqb_eq in H1, H5. rewrite H1, H5, !Z.eqb_refl. split; [split; [split; [split; [reflexivity|]|]|]|reflexivity].
    + destruct (cookie (rcore a)), (cookie (rcore b)); cbn in *; try discriminate; auto. now rewrite Z.eqb_sym.
    + apply (match_eqb_sym ra rb); auto.
    + unfold inst_eqb in *. rewrite !andb_true_iff in *. destruct H4 as (((((G & M) & C) & A0) & W) & Q).
      apply (opt_eqb_eq Z.eqb) in G; [|intros x y; apply Z.eqb_eq]. apply (opt_eqb_eq meta_eqb meta_eqb_eq) in M. apply Bool.eqb_prop in C. apply (opt_eqb_eq Z.eqb) in Q; [|intros x y; apply Z.eqb_eq].
      rewrite G, M, C, Q. rewrite opt_eqb_refl, Bool.eqb_reflx, opt_eqb_refl.
      split; [split; [split; [split; [split; [reflexivity|]|reflexivity]|]|]|reflexivity].
      * destruct (write_metadata (inst (rcore b))) as [[v m]|]; [|reflexivity]. cbn [opt_eqb]. unfold meta_eqb. cbn [fst snd]. now rewrite Z.eqb_refl, opt_eqb_refl.
      * apply (al_eqb_iff _ _ _ _ Ib Ia). apply ateq_sym. now apply (al_eqb_iff _ _ _ _ Ia Ib).
      * apply (al_eqb_iff _ _ _ _ (proj1 Wb) (proj1 Wa)). apply ateq_sym. now apply (al_eqb_iff _ _ _ _ (proj1 Wa) (proj1 Wb)).
  - apply IH; intros; [apply HA|apply HB]; now right.
Qed.
