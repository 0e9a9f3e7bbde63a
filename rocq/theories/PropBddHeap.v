(** Theorems for C15: the process-wide caches of the Python BDD engine. *)
From Verif Require Import SpecBdd BddHeap WildcardProofs MatchWcProofs BddProofs BddApi BddHeapProofs.
From Coq Require Import String.
Local Open Scope string_scope.
Local Open Scope Z_scope.
From Coq Require Import ZifyBool ZifyNat ZifyN.
Ltac Zify.zify_post_hook ::= Z.div_mod_to_equations.
Local Opaque NB.

Lemma Forall2_at {X Y} (R : X -> Y -> Prop) l l' : Forall2 R l l' -> forall i x y, nth_error l i = Some x -> nth_error l' i = Some y -> R x y.
Proof. intros H. induction H; intros [|i] u v; cbn; try discriminate; [congruence|eauto]. Qed.

Lemma Forall2_len {X Y} (R : X -> Y -> Prop) l l' : Forall2 R l l' -> List.length l = List.length l'.
Proof. intros H. induction H; cbn; auto. Qed.

Lemma inj_ok {X} {r : result X} {x y : X} : r = Ok x -> r = Ok y -> x = y.
Proof. intros H H'. rewrite H in H'. now injection H'. Qed.

(** A program is any sequence of BDD(), wc_to_BDD and binary operations on earlier results,
    so every history is a prefix of one. [opol]/[rpol] say what the LRUs keep after each
    access: any subset at all. [exprs] is the program without heap and caches. *)
Theorem C15_caches_are_transparent :
  forall (A : Type) (eqd : forall x y : A, {x = y} + {x <> y}) (differs : A) opol rpol frames cs,
  (forall t k l, incl (opol t k l) l) -> (forall t k l, incl (rpol t k l) l) ->
  (Z.to_nat NB + 2 <= frames)%nat -> cmds_ok 0 cs ->
  exists hs s, run eqd opol rpol frames cs [] (st0 differs) = Ok (hs, s) /\ List.length hs = List.length (exprs [] cs) /\
  (forall k r e, nth_error hs k = Some r -> nth_error (exprs [] cs) k = Some e ->
     exists b, rep (heap s) r b /\ beval eqd differs e = Ok b /\ forall p, bmeans differs e p (denote b p)) /\
  (forall i j ri rj ei ej bi bj, nth_error hs i = Some ri -> nth_error hs j = Some rj ->
     nth_error (exprs [] cs) i = Some ei -> nth_error (exprs [] cs) j = Some ej ->
     beval eqd differs ei = Ok bi -> beval eqd differs ej = Ok bj ->
     (ri = rj <-> forall p, denote bi p = denote bj p)).
Proof.
  intros A eqd differs opol rpol frames cs Ho Hr Hf Hc.
  destruct (run_ok eqd differs opol rpol Ho Hr frames Hf cs [] (st0 differs) []) as [hs [s [E [Hs [_ H]]]]]; auto.
  { apply sok_st0. }
  exists hs, s. split; [exact E|]. split; [eapply Forall2_len; eauto|]. cbn [app] in H. split.
  - intros k r e Hk He. destruct (Forall2_at _ _ _ H k r e Hk He) as [Ok' [b [Eb Rb]]]. exists b. split; [auto|]. split; [auto|].
    destruct (beval_total eqd differs e Ok') as [b' [Eb' [_ D]]]. rewrite Eb in Eb'. injection Eb' as <-. exact D.
  - intros i j ri rj ei ej bi bj Hi Hj Hei Hej Ebi Ebj.
    destruct (Forall2_at _ _ _ H _ _ _ Hi Hei) as [Oki [bi' [E1 R1]]]. destruct (Forall2_at _ _ _ H _ _ _ Hj Hej) as [Okj [bj' [E2 R2]]].
    rewrite Ebi in E1. injection E1 as <-. rewrite Ebj in E2. injection E2 as <-.
    rewrite (rep_eq eqd differs (heap s) (s_heap _ _ _ Hs) _ _ _ _ R1 R2). apply (api_equality eqd differs ei ej); auto.
Qed.

(** The LRU used by the code, at any capacity, is one of these policies. *)
Theorem C15_lru_is_a_policy : forall (K V : Type) (eqd : forall x y : K, {x = y} + {x <> y}) cap t k (l : list (K * V)),
  incl (lru_policy eqd cap t k l) l.
Proof.
  intros K V eqd cap t k l x Hx. unfold lru_policy in Hx.
  assert (Hin : In x (filter (fun e => if eqd (fst e) k then true else false) l ++ filter (fun e => if eqd (fst e) k then false else true) l)).
  { rewrite <- (firstn_skipn cap). apply in_or_app. now left. }
  apply in_app_or in Hin as [Hin|Hin]; now apply filter_In in Hin.
Qed.

(** Two processes that run the same program with differently sized or evicting caches, after
    different histories, agree on which results are equal. *)
Theorem C15_history_is_irrelevant :
  forall (A : Type) (eqd : forall x y : A, {x = y} + {x <> y}) (differs : A) opol rpol opol' rpol' frames frames' cs cs' hs s hs' s',
  (forall t k l, incl (opol t k l) l) -> (forall t k l, incl (rpol t k l) l) ->
  (forall t k l, incl (opol' t k l) l) -> (forall t k l, incl (rpol' t k l) l) ->
  (Z.to_nat NB + 2 <= frames)%nat -> (Z.to_nat NB + 2 <= frames')%nat -> cmds_ok 0 cs -> cmds_ok 0 cs' ->
  run eqd opol rpol frames cs [] (st0 differs) = Ok (hs, s) -> run eqd opol' rpol' frames' cs' [] (st0 differs) = Ok (hs', s') ->
  forall i j i' j' e f, nth_error (exprs [] cs) i = Some e -> nth_error (exprs [] cs') i' = Some e ->
    nth_error (exprs [] cs) j = Some f -> nth_error (exprs [] cs') j' = Some f ->
    (nth_error hs i = nth_error hs j <-> nth_error hs' i' = nth_error hs' j').
Proof.
  intros A eqd differs opol rpol opol' rpol' frames frames' cs cs' hs s hs' s' H1 H2 H3 H4 F F' C C' E E' i j i' j' e f He He' Hf Hf'.
  destruct (C15_caches_are_transparent A eqd differs opol rpol frames cs) as [x [y [X [L [M Q]]]]]; auto.
  destruct (C15_caches_are_transparent A eqd differs opol' rpol' frames' cs') as [x' [y' [X' [L' [M' Q']]]]]; auto.
  rewrite E in X. injection X as <- <-. rewrite E' in X'. injection X' as <- <-.
  assert (G : forall k e (l : list (bexpr A)) (h : list ref), List.length h = List.length l -> nth_error l k = Some e -> exists r, nth_error h k = Some r).
  { intros k e0 l h HL HN. destruct (nth_error h k) as [r|] eqn:G; [eauto|]. apply nth_error_None in G.
    assert (k < List.length l)%nat by (apply nth_error_Some; congruence). lia. }
  destruct (G i e _ _ L He) as [ri Ri], (G j f _ _ L Hf) as [rj Rj], (G i' e _ _ L' He') as [ri' Ri'], (G j' f _ _ L' Hf') as [rj' Rj'].
  destruct (M i ri e Ri He) as [be [_ [Be _]]], (M j rj f Rj Hf) as [bf [_ [Bf _]]].
  pose proof (Q _ _ _ _ _ _ _ _ Ri Rj He Hf Be Bf) as K. pose proof (Q' _ _ _ _ _ _ _ _ Ri' Rj' He' Hf' Be Bf) as K'.
  rewrite Ri, Rj, Ri', Rj'. split; intros S; injection S as S; f_equal; tauto.
Qed.

(** The frame count is not idle: NB + 2 = 1586, but CPython's default recursion limit is
    1000 and the code never raises it. Two matches agreeing on 1583 bits exhaust it. *)
Lemma bits_exist (f : Z -> bool) n : exists w, 0 <= w < 2 ^ Z.of_nat n /\ forall i, 0 <= i < Z.of_nat n -> Z.testbit w i = f i.
Proof.
  induction n as [|n [w [Hw IH]]].
  - exists 0. split; [cbn; lia|intros i Hi; lia].
  - exists (w + (if f (Z.of_nat n) then 2 ^ Z.of_nat n else 0)).
    assert (Hp : 2 ^ Z.of_nat (S n) = 2 * 2 ^ Z.of_nat n) by (rewrite Nat2Z.inj_succ, Z.pow_succ_r by lia; reflexivity).
    assert (H0 : 0 < 2 ^ Z.of_nat n) by (apply Z.pow_pos_nonneg; lia).
    split; [destruct (f (Z.of_nat n)); lia|]. intros i Hi.
    assert (D : (w + (if f (Z.of_nat n) then 2 ^ Z.of_nat n else 0)) = w + Z.b2z (f (Z.of_nat n)) * 2 ^ Z.of_nat n) by (destruct (f (Z.of_nat n)); cbn [Z.b2z]; lia).
    rewrite D. destruct (Z.eq_dec i (Z.of_nat n)) as [->|Hne].
    + apply Z.b2z_inj. rewrite Z.testbit_spec' by lia. rewrite Z.div_add by (clear - H0; lia).
      rewrite Z.div_small by exact Hw. rewrite Z.add_0_l. destruct (f (Z.of_nat n)); reflexivity.
    + rewrite <- (IH i) by lia. rewrite <- (Z.mod_pow2_bits_low _ (Z.of_nat n) i) by lia.
      rewrite Z.mod_add by (clear - H0; lia). rewrite Z.mod_small by exact Hw. reflexivity.
Qed.

Section Deep.
  Context (opol : nat -> okey -> list (okey * ref) -> list (okey * ref)).
  Context (rpol : nat -> rkey -> list (rkey * ref) -> list (rkey * ref)).
  Hypothesis opol_incl : forall t k l, incl (opol t k l) l.
  Hypothesis rpol_incl : forall t k l, incl (rpol t k l) l.
  Notation sok := (sok string_dec "DIFFERS").
  Fixpoint chain (lo : Z) (k : nat) (t : bdd string) : bdd string :=
    match k with O => t | S k => BNode lo (chain (lo + 1) k t) BNone end.

  Lemma deep_recursion : forall f k lo a b ta tb s, sok s -> ocache s = [] -> (f <= k)%nat ->
    rep (heap s) a (chain lo k ta) -> rep (heap s) b (chain lo k tb) ->
    op_rec string_dec opol f Merge a b s = Err RecursionError.
  Proof.
    induction f as [|f IH]; intros k lo a b ta tb s Hs Hc Hk Ha Hb; [reflexivity|].
    destruct k as [|k]; [lia|]. rewrite op_rec_S.
    destruct (op_stop_ok string_dec "DIFFERS" Merge a b _ _ s Hs Ha Hb) as [x [-> Hx]]. cbn [rbind].
    assert (Et : tstop string_dec "DIFFERS" Merge (chain lo (S k) ta) (chain lo (S k) tb) = None).
    { cbn [tstop chain has_none]. now rewrite orb_true_r. }
    rewrite Et in Hx. destruct x as [r|]; [contradiction|].
    unfold ocache_get. rewrite Hc. cbn [assoc]. set (s1 := mkst (heap s) (opol (tick s) (Merge, a, b) []) (rcache s) (S (tick s))).
    assert (Hc1 : ocache s1 = []).
    { cbn [s1 ocache]. pose proof (opol_incl (tick s) (Merge, a, b) []) as Hi. destruct (opol (tick s) (Merge, a, b) []) as [|e l]; [reflexivity|].
      destruct (Hi e). now left. }
    assert (Hs1 : sok s1).
    { destruct Hs as [X Y Z]. constructor; auto. intros op' a' b' r' Hin. rewrite Hc1 in Hin. destruct Hin. }
    assert (Wa : bdd_wf lo (chain lo (S k) ta)) by (eapply (rep_wf string_dec "DIFFERS" _ (s_heap _ _ _ Hs)); [exact Ha|right; cbn; lia]).
    assert (Wb : bdd_wf lo (chain lo (S k) tb)) by (eapply (rep_wf string_dec "DIFFERS" _ (s_heap _ _ _ Hs)); [exact Hb|right; cbn; lia]).
    destruct (split_ok string_dec "DIFFERS" Merge a b _ _ s1 lo Hs1 Ha Hb Wa Wb Et)
      as [n [a0 [b0 [a1 [b1 [ta0 [tb0 [ta1 [tb1 [-> [Esp [Ra0 [Rb0 _]]]]]]]]]]]]].
    cbn [rbind]. cbn [tsplit chain tnum tzero tone] in Esp. rewrite Z.eqb_refl in Esp. injection Esp as <- <- <- <- <-.
    rewrite (IH k (lo + 1) a0 b0 ta tb s1); auto. lia.
  Qed.

  Lemma steps_ocache wc : forall l r s r' s', rfold_l (wc_step_h string_dec wc) (r, s) l = Ok (r', s') -> ocache s' = ocache s.
  Proof.
    induction l as [|x l IH]; intros r s r' s'; cbn [rfold_l]; [intros H; now injection H as _ <-|].
    unfold wc_step_h at 1.
    assert (G : forall n z o, match (do c <- new_node string_dec n z o s; Ok (check_ncache string_dec c s)) with Ok (_, t) => ocache t = ocache s | Err _ => True end).
    { intros n z o. destruct (new_node _ _ _ _ _) as [c|]; cbn [rbind]; [|exact Logic.I]. unfold check_ncache. destruct find_cell; reflexivity. }
    destruct (wc_bit wc x =? 0); [discriminate|].
    destruct (wc_bit wc x =? 1); [specialize (G (NB - 1 - x) r None)|].
    { destruct (do c <- _; _) as [[r1 s1]|]; cbn [rbind]; [|discriminate]. intros H. rewrite (IH _ _ _ _ H). exact G. }
    destruct (wc_bit wc x =? 2); [specialize (G (NB - 1 - x) None r)|].
    { destruct (do c <- _; _) as [[r1 s1]|]; cbn [rbind]; [|discriminate]. intros H. rewrite (IH _ _ _ _ H). exact G. }
    cbn [rbind]. apply IH.
  Qed.
  Lemma wc_ocache wc act s r s' : wc_to_BDD_h string_dec rpol wc act s = Ok (r, s') -> ocache s' = ocache s.
  Proof.
    unfold wc_to_BDD_h. destruct (wc =? 0); [intros H; now injection H as _ <-|].
    assert (G : ocache (snd (check_ncache string_dec (CTerm act) s)) = ocache s) by (unfold check_ncache; destruct find_cell; reflexivity).
    destruct (check_ncache string_dec (CTerm act) s) as [[t|] s1]; [|discriminate]. cbn [snd] in G. rewrite <- G. unfold rcache_get.
    destruct (assoc _ _ _) as [[i|]|].
    - intros H. now injection H as _ <-.
    - destruct (rfold_l _ _ _) as [[r1 s2]|] eqn:E; [|discriminate]. cbn [rbind]. intros H. injection H as _ <-. cbn. now rewrite (steps_ocache _ _ _ _ _ _ E).
    - destruct (rfold_l _ _ _) as [[r1 s2]|] eqn:E; [|discriminate]. cbn [rbind]. intros H. injection H as _ <-. cbn. now rewrite (steps_ocache _ _ _ _ _ _ E).
  Qed.

  (** All tbits 0 but the last, which is [last]. *)
  Lemma wc_exists (last : bool) : exists w, wc_ok w /\ forall act, exists t, wc_to_BDD w act = Ok (chain 0 1583 t).
  Proof.
    pose (f := fun i => if i =? 0 then negb last else if i =? 1 then last else Z.even i).
    destruct (bits_exist f (2 * Z.to_nat NB)) as [w [Hr Hb]]. rewrite Nat2Z.inj_mul, Z2Nat.id in Hr, Hb by (rewrite NB_val; lia).
    change (Z.of_nat 2) with 2 in *.
    assert (B : forall i, 0 <= i < NB -> wc_bit w i = if i =? 0 then (if last then 2 else 1) else 1).
    { intros i Hi. rewrite wc_bit_spec, !Hb by lia. unfold f. destruct (Z.eqb_spec i 0) as [->|Hne].
      - cbn. destruct last; reflexivity.
      - replace (2 * i =? 0) with false by lia. replace (2 * i =? 1) with false by lia.
        replace (2 * i + 1 =? 0) with false by lia. replace (2 * i + 1 =? 1) with false by lia.
        rewrite Z.even_add, Z.even_mul. reflexivity. }
    assert (Hz : zfree w).
    { intros i Hi. specialize (B i Hi). rewrite wc_bit_spec in B by lia.
      destruct (Z.testbit w (2 * i)); [now left|]. destruct (Z.testbit w (2 * i + 1)); [now right|].
      destruct (i =? 0), last; discriminate. }
    exists w. split; [split; [exact Hr|exact Hz]|]. intros act.
    pose (t := if last then BNode (NB - 1) BNone (BTerm act) else BNode (NB - 1) (BTerm act) BNone).
    exists t. unfold wc_to_BDD. destruct (Z.eqb_spec w 0) as [E|_]; [apply zfree_nonzero in Hz; congruence|].
    assert (S1 : forall k, Z.of_nat k < NB -> rfold_l (wc_to_BDD_step w) (BTerm act) (seqZ (S k)) = Ok (chain (NB - 1 - Z.of_nat k) k t)).
    { induction k as [|k IH]; intros Hk.
      - cbn [seqZ seq map rfold_l Z.of_nat]. unfold wc_to_BDD_step. rewrite B by lia. cbn [Z.eqb]. unfold t. rewrite Z.sub_0_r. cbn [chain].
        destruct last; reflexivity.
      - rewrite seqZ_snoc, rfold_l_app, IH by lia. cbn [rbind rfold_l]. unfold wc_to_BDD_step. rewrite B by lia.
        destruct (Z.eqb_spec (Z.of_nat (S k)) 0) as [X|_]; [lia|]. cbn [Z.eqb Pos.eqb rbind chain].
        replace (NB - 1 - Z.of_nat (S k) + 1) with (NB - 1 - Z.of_nat k) by lia. reflexivity. }
    replace (Z.to_nat NB) with (S 1583) by (rewrite NB_val; reflexivity). rewrite S1 by (rewrite NB_val; lia).
    rewrite NB_val. reflexivity.
  Qed.

  Lemma recursion_limit : exists cs, cmds_ok 0 cs /\
    forall frames, (frames <= 1583)%nat -> run string_dec opol rpol frames cs [] (st0 "DIFFERS") = Err RecursionError.
  Proof.
    destruct (wc_exists false) as [w1 [O1 T1]], (wc_exists true) as [w2 [O2 T2]].
    destruct (T1 "a") as [t1 E1], (T2 "b") as [t2 E2].
    exists [KWc w1 "a"; KWc w2 "b"; KOp Merge 0 1]. split; [cbn; repeat split; auto|]. intros frames Hf.
    cbn [run step]. 
    destruct (wc_to_BDD_h_ok string_dec "DIFFERS" opol rpol opol_incl rpol_incl w1 "a" (st0 "DIFFERS") (sok_st0 _ _) (or_intror O1)) as [r1 [s1 [b1 [F1 [S1 [X1 [G1 R1]]]]]]].
    destruct (wc_to_BDD_h_ok string_dec "DIFFERS" opol rpol opol_incl rpol_incl w2 "b" s1 S1 (or_intror O2)) as [r2 [s2 [b2 [F2 [S2 [X2 [G2 R2]]]]]]].
    rewrite F1. cbn [rbind]. rewrite F2. cbn [rbind app get_handle nth_error].
    rewrite (deep_recursion frames 1583 0 r1 r2 t1 t2 s2); auto.
    - rewrite (wc_ocache _ _ _ _ _ F2), (wc_ocache _ _ _ _ _ F1). reflexivity.
    - rewrite (inj_ok E1 G1). eapply rep_ext; eauto.
    - rewrite (inj_ok E2 G2). exact R2.
  Qed.
End Deep.

Theorem C15_default_recursion_limit_refuted : forall opol rpol,
  (forall t k l, incl (opol t k l) l) -> (forall t k l, incl (rpol t k l) l) ->
  exists cs, cmds_ok 0 cs /\ run string_dec opol rpol 1000 cs [] (st0 "DIFFERS") = Err RecursionError.
Proof.
  intros opol rpol Ho Hr. destruct (recursion_limit opol rpol Ho Hr) as [cs [H1 H2]]. exists cs. split; [auto|]. apply H2.
  apply Nat.leb_le. vm_compute. reflexivity.
Qed.

(** Example: a small heap with two one-node diagrams, caches of capacity 1. Merging both ways
    and subtracting gives shared nodes, and repeating an operation finds the same address. *)
Definition ex_heap : list (cell string) :=
  [CTerm "DIFFERS"; CTerm "drop"; CTerm "fwd"; CNode 1583 (Some 1%nat) None true; CNode 1582 None (Some 2%nat) true].
Definition ex_st : st string := mkst ex_heap [] [] 0.
Definition ex_run (cap : nat) := run string_dec (lru_policy okey_eq_dec cap) (lru_policy rkey_eq_dec cap) 1600
  [KOp Merge 0 1; KOp Merge 1 0; KOp Sub 2 3; KOp Diff 0 1; KOp Merge 0 1] [Some 3%nat; Some 4%nat] ex_st.
Example ex_run_cap0 : rmap fst (ex_run 0) = Ok [Some 3; Some 4; Some 6; Some 7; Some 8; Some 10; Some 6]%nat.
Proof. vm_compute. reflexivity. Qed.
Example ex_run_cap1 : rmap fst (ex_run 1) = rmap fst (ex_run 0).
Proof. vm_compute. reflexivity. Qed.
Example ex_cmds_ok : forall w1 w2, wc_ok w1 -> wc_ok w2 ->
  cmds_ok 0 [KWc w1 "drop"; KWc w2 "fwd"; KOp Merge 0 1; KOp Merge 1 0; KOp Sub 2 3; KOp Inter 2 3; KEmpty; KOp Diff 6 4].
Proof. intros. cbn [cmds_ok]. repeat split; auto; lia. Qed.

Print Assumptions C15_caches_are_transparent.
Print Assumptions C15_lru_is_a_policy.
Print Assumptions C15_history_is_irrelevant.
Print Assumptions C15_default_recursion_limit_refuted.
