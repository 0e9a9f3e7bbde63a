(** Theorems for C84 and C85: the references the CUDD backend takes and gives back. *)
From Verif Require Import SpecBdd WildcardProofs BddProofs CuddProofs BddApi CuddRefs SpecCuddRefs CuddRefsProofs PropBdd.
From Coq Require Import Permutation Lia ZifyBool ZifyNat.
Local Open Scope list_scope.
Local Open Scope Z_scope.
Local Opaque NB w_a w_b.

(** Example material. [w_a] has one exact bit, so its BDD is one node. *)
Lemma ex85_wf t : t <> 0 -> add_wf 0 (ANode 1583 BK (AConst t)).
Proof. intros Ht. unfold BK. cbn [add_wf]. rewrite NB_val. repeat split; try lia. intros X. injection X. lia. Qed.
Lemma ex85_bit : NB - 1 - 1583 = 0. Proof. rewrite NB_val. reflexivity. Qed.
Lemma wc_a_add t : t <> 0 -> cudd_wc_to_BDD 30 w_a t = ANode 1583 BK (AConst t).
Proof.
  intros Ht. assert (S1 : 0 < 30) by lia. pose proof (cudd_wc_ok 30 w_a t S1 eq_refl (proj1 ex_wcs_ok) Ht) as [W D].
  apply (adenote_inj 0); [exact W|exact (ex85_wf t Ht)|].
  intros p. destruct (D p) as [D1 D2]. clear D W. pose proof (w_a_accepts p) as Hw. cbn [adenote]. rewrite ex85_bit.
  destruct (p 0); [apply D2; rewrite Hw; discriminate|apply D1, Hw; reflexivity].
Qed.
(** Builds two BDDs, melds them, looks below the root of the first, drops that, reads the meld. *)
Definition prog84 : list kcmd := [KWc w_a 2; KNew 3; KOp UMeld (AObj 0) (AObj 1); KChild false 0; KDrop 0; KRead 2].
Lemma prog84_ok : koks 30 [] prog84.
Proof.
  unfold prog84. cbn [koks kok kval app]. rewrite (wc_a_add 2) by lia.
  split; [right; split; [exact (proj1 ex_wcs_ok)|lia]|]. split; [exact Logic.I|].
  split; [split; discriminate|]. split; [eexists; reflexivity|]. split; [eexists; reflexivity|]. split; [discriminate|exact Logic.I].
Qed.
Lemma prog84_vals : kvals 30 prog84 [] =
  [None; Some (Some (AConst 3)); Some (Some (ANode 1583 (AConst 3) (AConst 2))); Some (Some (AConst 2))].
Proof. unfold prog84, kvals. cbn [fold_left kval app]. rewrite (wc_a_add 2) by lia. vm_compute. reflexivity. Qed.

(** ** C84 *)
(** No program reads or references a node that CUDD may have freed, or gives back a reference it has not taken;
    what it holds are the BDDs it asked for, each protected by a reference of its own. *)
Theorem C84_no_freed_node : forall SHIFT cs, 0 < SHIFT -> SHIFT mod 2 = 0 -> koks SHIFT [] cs ->
  exists s, k_run SHIFT cs cudd_init = CFine s /\ cobjs s = kvals SHIFT cs [] /\
    (forall i f, kroot (cobjs s) i = Some f -> In f (crefs s) /\ add_wf 0 f).
Proof.
  intros SHIFT cs Hs He K. destruct (run_counted SHIFT cs cudd_init []) as [s [E [O C]]]; [apply Permutation_refl|exact K|].
  exists s. split; [exact E|]. split; [exact O|]. intros i f Hf. split; [eapply counted_root; eauto|].
  rewrite O in Hf. cbn [cudd_init cobjs] in Hf. apply kroot_in in Hf as [_ Hf].
  apply (kvals_wf SHIFT cs Hs He []); auto. intros g [].
Qed.
(** [==] compares the nodes: it is true exactly if the BDDs are the same function. *)
Theorem C84_equality_is_semantic : forall SHIFT cs s i j f g, 0 < SHIFT -> SHIFT mod 2 = 0 -> koks SHIFT [] cs ->
  k_run SHIFT cs cudd_init = CFine s -> kroot (cobjs s) i = Some f -> kroot (cobjs s) j = Some g ->
  (f = g <-> forall p, adenote f p = adenote g p).
Proof.
  intros SHIFT cs s i j f g Hs He K E Hf Hg. destruct (C84_no_freed_node SHIFT cs Hs He K) as [s' [E' [_ H]]].
  rewrite E in E'. injection E' as <-. apply (adenote_inj 0); [exact (proj2 (H i f Hf))|exact (proj2 (H j g Hg))].
Qed.
(** None is taken as an argument and then followed as a NULL pointer. The claim would be: a program whose arguments
    are BDDs it holds, or None, ends normally or with an exception. *)
Theorem C84_none_argument_refuted : exists cs, k_run 30 cs cudd_init = CNull /\
  (forall o a b, In (KOp o a b) cs -> (a = AObj 0 \/ a = ANone) /\ (b = AObj 0 \/ b = ANone)) /\ kheld (kvals 30 (firstn 1 cs) []) 0.
Proof.
  exists [KNew 5; KOp UMeld (AObj 0) ANone]. split; [vm_compute; reflexivity|]. split.
  - intros o a b [H|[H|[]]]; [discriminate|]. injection H as <- <- <-. auto.
  - eexists. reflexivity.
Qed.
(** So is an object whose [__init__] has not run. *)
Theorem C84_uninitialised_argument_refuted : k_run 30 [KBare; KNew 5; KOp USubtract (AObj 1) (AObj 0)] cudd_init = CNull.
Proof. vm_compute. reflexivity. Qed.
Example C84_ex : exists s, k_run 30 prog84 cudd_init = CFine s /\ kroot (cobjs s) 2 = Some (ANode 1583 (AConst 3) (AConst 2)) /\
  kroot (cobjs s) 0 = None.
Proof.
  destruct (C84_no_freed_node 30 prog84 ltac:(lia) eq_refl prog84_ok) as [s [E [O H]]]. exists s. split; [exact E|].
  rewrite O, prog84_vals. split; reflexivity.
Qed.
(** The checks of the model bite: a reference taken late, and one given back twice. *)
Example C84_ex_checks : api_apply addMeld (AConst 7) BK cudd_init = CFreed /\ api_deref (AConst 7) cudd_init = CUnder.
Proof. split; vm_compute; reflexivity. Qed.
Print Assumptions C84_no_freed_node.
Print Assumptions C84_equality_is_semantic.
Print Assumptions C84_none_argument_refuted.
Print Assumptions C84_uninitialised_argument_refuted.

(** ** C85 *)
(** The references outstanding after any program: the module's own, one per BDD that exists, and the leaked ones. *)
Theorem C85_references_exact : forall SHIFT cs s, koks SHIFT [] cs -> k_run SHIFT cs cudd_init = CFine s ->
  Permutation (crefs s) (DIFFERS :: kroots (kvals SHIFT cs []) ++ kleaks SHIFT [] cs).
Proof.
  intros SHIFT cs s K E. destruct (run_counted SHIFT cs cudd_init []) as [s' [E' [O C]]]; [apply Permutation_refl|exact K|].
  rewrite E in E'. injection E' as <-. unfold counted in C. rewrite O in C. exact C.
Qed.
(** A BDD made from a wildcard leaks one reference for every exact bit. *)
Theorem C85_leak_per_exact_bit : forall SHIFT wc t vs, 0 < SHIFT -> SHIFT mod 2 = 0 -> wc_ok wc -> t <> 0 ->
  List.length (kleak SHIFT vs (KWc wc t)) = exact_bits wc.
Proof. intros. now apply wc_below_length. Qed.
Lemma none_held vs : (forall i, ~ kheld vs i) -> kroots vs = [].
Proof.
  intros H. destruct (kroots vs) as [|f l] eqn:E; [reflexivity|]. exfalso.
  assert (X : In f (kroots vs)) by (rewrite E; now left). apply in_flat_map in X as [v [Hv Hf]].
  apply In_nth_error in Hv as [i Hi]. apply (H i). destruct v as [r|]; [exists r; exact Hi|contradiction].
Qed.
(** Once the program has dropped all its BDDs, only the module's own reference should be left. It is, if
    no BDD was made from a wildcard and none was initialised twice. *)
Theorem C85_all_released_partial : forall SHIFT cs s, koks SHIFT [] cs -> k_run SHIFT cs cudd_init = CFine s ->
  (forall i, ~ kheld (cobjs s) i) ->
  (forall wc t, In (KWc wc t) cs -> wc = 0) -> (forall i a, ~ In (KInit i a) cs) ->
  crefs s = [DIFFERS].
Proof.
  intros SHIFT cs s K E N W I. pose proof (C85_references_exact SHIFT cs s K E) as P.
  destruct (run_counted SHIFT cs cudd_init []) as [s' [E' [O _]]]; [apply Permutation_refl|exact K|]. rewrite E in E'. injection E' as <-.
  rewrite O in N. cbn [cudd_init cobjs] in N. rewrite (none_held _ N) in P.
  assert (L : forall vs, kleaks SHIFT vs cs = []).
  { clear -W I. induction cs as [|c cs IH]; intros vs; [reflexivity|]. cbn [kleaks]. rewrite IH.
    - destruct c; try reflexivity; cbn [kleak].
      + exfalso. apply (I i action). now left.
      + rewrite (W wc term (or_introl eq_refl)). reflexivity.
    - intros wc t H. apply (W wc t). now right.
    - intros i a H. apply (I i a). now right. }
  rewrite L in P. apply Permutation_sym, Permutation_length_1_inv in P. exact P.
Qed.
Lemma fold_kput vs x : kput (vs ++ [x]) (List.length vs) None = vs ++ [None].
Proof.
  unfold kput. rewrite firstn_app, Nat.sub_diag, firstn_all, firstn_O, app_nil_r. f_equal.
  rewrite skipn_all2; [reflexivity|]. rewrite app_length. cbn. lia.
Qed.
(** n times: make the BDD of a wildcard, drop it. *)
Fixpoint rebuild (wc t : Z) (n k : nat) : list kcmd :=
  match n with O => [] | S m => KWc wc t :: KDrop k :: rebuild wc t m (S k) end.
Lemma rebuild_spec SHIFT wc t : 0 < SHIFT -> SHIFT mod 2 = 0 -> wc_ok wc -> t <> 0 -> forall n vs, (forall i, ~ kheld vs i) ->
  koks SHIFT vs (rebuild wc t n (List.length vs)) /\ (forall i, ~ kheld (kvals SHIFT (rebuild wc t n (List.length vs)) vs) i) /\
  List.length (kleaks SHIFT vs (rebuild wc t n (List.length vs))) = (n * exact_bits wc)%nat.
Proof.
  intros Hs He W Ht. induction n as [|n IH]; intros vs N; cbn [rebuild].
  - split; [exact Logic.I|]. split; [exact N|reflexivity].
  - cbn [koks kok kleaks kvals fold_left kval]. rewrite fold_kput. cbn [kleak app].
    destruct (IH (vs ++ [None])) as [K [G L]].
    { intros i [r Hr]. destruct (Nat.ltb_spec i (List.length vs)) as [Hi|Hi].
      - rewrite nth_error_app1 in Hr by auto. apply (N i). now exists r.
      - rewrite nth_error_app2 in Hr by auto. destruct (i - List.length vs)%nat as [|k]; [discriminate|]. destruct k; discriminate. }
    rewrite app_length, Nat.add_1_r in *. split; [|split; [exact G|]].
    + split; [auto|]. split; [|exact K]. eexists. rewrite nth_error_app2 by auto. rewrite Nat.sub_diag. reflexivity.
    + rewrite L, (wc_below_length SHIFT wc t Hs He W Ht). reflexivity.
Qed.
(** So the references grow without bound, although no BDD is kept. *)
Theorem C85_leak_without_bound : forall SHIFT wc t n, 0 < SHIFT -> SHIFT mod 2 = 0 -> wc_ok wc -> t <> 0 ->
  exists s, koks SHIFT [] (rebuild wc t n 0) /\ k_run SHIFT (rebuild wc t n 0) cudd_init = CFine s /\ (forall i, ~ kheld (cobjs s) i) /\
    List.length (crefs s) = (1 + n * exact_bits wc)%nat.
Proof.
  intros SHIFT wc t n Hs He W Ht. destruct (rebuild_spec SHIFT wc t Hs He W Ht n []) as [K [N L]].
  { intros i [r Hr]. destruct i; discriminate. }
  cbn [List.length] in *. destruct (run_counted SHIFT (rebuild wc t n 0) cudd_init []) as [s [E [O C]]]; [apply Permutation_refl|exact K|].
  exists s. split; [exact K|]. split; [exact E|]. rewrite O. split; [exact N|].
  apply Permutation_length in C. rewrite O in C. cbn [cudd_init cobjs app] in C. rewrite (none_held _ N) in C. cbn [List.length app] in C. rewrite L in C. exact C.
Qed.
(** One BDD from a wildcard, built and dropped, leaves its terminal referenced. *)
Theorem C85_all_released_refuted : exists cs s, koks 30 [] cs /\ k_run 30 cs cudd_init = CFine s /\
  (forall i, ~ kheld (cobjs s) i) /\ Permutation (crefs s) [DIFFERS; AConst 7].
Proof.
  exists [KWc w_a 7; KDrop 0]. assert (K : koks 30 [] [KWc w_a 7; KDrop 0]).
  { cbn [koks kok kval app]. split; [right; split; [exact (proj1 ex_wcs_ok)|lia]|]. split; [eexists; reflexivity|exact Logic.I]. }
  destruct (run_counted 30 [KWc w_a 7; KDrop 0] cudd_init []) as [s [E [O C]]]; [apply Permutation_refl|exact K|].
  exists s. split; [exact K|]. split; [exact E|].
  pose proof (C85_references_exact 30 _ s K E) as P. rewrite O. cbn [cudd_init cobjs kvals fold_left kval app kput firstn skipn] in *.
  split.
  - intros [|i] [r Hr]; [discriminate|destruct i; discriminate].
  - cbn [kleaks kleak kval app] in P. rewrite (wc_a_add 7) in P by lia. exact P.
Qed.
(** The constant of the program of C84 that stays referenced: AConst 2 once for the child object, once leaked. *)
Example C85_ex : exists s, k_run 30 prog84 cudd_init = CFine s /\
  Permutation (crefs s) [DIFFERS; AConst 3; ANode 1583 (AConst 3) (AConst 2); AConst 2; AConst 2].
Proof.
  destruct (C84_no_freed_node 30 prog84 ltac:(lia) eq_refl prog84_ok) as [s [E _]]. exists s. split; [exact E|].
  rewrite (C85_references_exact 30 prog84 s prog84_ok E), prog84_vals. unfold prog84. cbn [kleaks kleak app kval]. rewrite (wc_a_add 2) by lia.
  reflexivity.
Qed.
Print Assumptions C85_references_exact.
Print Assumptions C85_leak_per_exact_bit.
Print Assumptions C85_all_released_partial.
Print Assumptions C85_leak_without_bound.
Print Assumptions C85_all_released_refuted.
