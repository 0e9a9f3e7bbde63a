(** Theorems for C80-C82: the memory of the C BDD engine and its collector. *)
From Verif Require Import SpecBdd BddHeap WildcardProofs MatchWcProofs BddProofs BddApi BddHeapProofs CEngine SpecGc CEngineProofs CEngineRun PropBddHeap.
From Coq Require Import String.
Local Open Scope string_scope.
Local Open Scope Z_scope.
From Coq Require Import Lia ZifyBool ZifyNat.
Local Opaque NB.

(** *** C80: gc_node_cache in any memory that is in order *)
Lemma reached_stays {A} (f f' : nat -> option (cell A)) R : (forall x, reached f R x -> f' x = f x) ->
  forall x, reached f R x -> reached f' R x.
Proof.
  intros K x H. induction H as [x Hx|x y c Hy IH Hc Hz|x y c Hy IH Hc Hz].
  - now apply reached_root.
  - eapply reached_zero; [exact IH| |exact Hz]. now rewrite K.
  - eapply reached_one; [exact IH| |exact Hz]. now rewrite K.
Qed.

(** [held] is everything outside NODE_CACHE that refers to a node. The collector never
    fails, keeps precisely the nodes reached from [held], at their addresses and in their
    order, and leaves counts that are right again. *)
Theorem C80_collector_frees_exactly_the_garbage :
  forall (A : Type) (eqd : forall x y : A, {x = y} + {x <> y}) frames (m : mst A) held,
  (1 <= frames)%nat -> tidy eqd m held ->
  exists m', gc_node_cache eqd frames m = Fine m' /\ tidy eqd m' held /\
    (forall x, mem m' x <> None <-> reached (mem m) held x) /\
    (forall x, reached (mem m) held x -> mem m' x = mem m x) /\
    (forall r b, In r held -> crep (mem m) r b -> crep (mem m') r b) /\
    tbl m' = filter (fun x => match mem m' x with Some _ => true | None => false end) (tbl m).
Proof.
  intros A eqd frames m held Hf H. destruct (gc_ok eqd frames Hf m held H) as [m' [E [T [K [F S]]]]].
  exists m'. split; [exact E|]. split; [exact T|]. split; [|split; [exact K|split; [|exact S]]].
  - intros x. split; [apply F|]. intros Hx. rewrite (K x Hx). eapply reached_live; eauto.
  - intros r b Hr Hb. eapply crep_reached; eauto. destruct r as [x|]; [|exact Logic.I]. now apply reached_root.
Qed.

(** A second collection finds nothing to do. *)
Theorem C80_collecting_twice_is_idle :
  forall (A : Type) (eqd : forall x y : A, {x = y} + {x <> y}) frames (m m1 : mst A) held,
  (1 <= frames)%nat -> tidy eqd m held -> gc_node_cache eqd frames m = Fine m1 -> gc_node_cache eqd frames m1 = Fine m1.
Proof.
  intros A eqd frames m m1 held Hf H E1.
  destruct (gc_ok eqd frames Hf m held H) as [m' [E [T [K [F S]]]]]. rewrite E1 in E. injection E as <-.
  assert (Hn : gc_scan m1 = []).
  { unfold gc_scan. destruct (filter (fun x => cnt m1 x =? 2) (tbl m1)) as [|x l] eqn:El; [reflexivity|]. exfalso.
    assert (Hx : In x (filter (fun x => cnt m1 x =? 2) (tbl m1))) by (rewrite El; now left).
    apply filter_In in Hx as [Hx Hc]. assert (Lx : mem m1 x <> None) by (now apply (t_live _ _ _ T)).
    rewrite (t_cnt _ _ _ T x Lx) in Hc. pose proof (F x Lx) as Rx.
    assert (Ho : 0 < occ x (kids (mem m1) (tbl m1) ++ held)); [|lia]. apply occ_pos.
    apply (reached_stays _ (mem m1) _ K) in Rx. apply in_or_app.
    inversion Rx as [y Hy|y z c Hz Hc0 Hk|y z c Hz Hc0 Hk]; subst; [now right| |]; left; unfold kids; apply in_flat_map; exists z;
      (split; [apply (t_live _ _ _ T); congruence|]); rewrite Hc0; cbn [In]; auto. }
  unfold gc_node_cache. rewrite Hn. destruct (List.length (tbl m1)); reflexivity.
Qed.

(** *** C81: whole programs *)
(** A program is any sequence of BDD(), wc_to_BDD, operations on BDDs still held, drops,
    collections and changes of the threshold. [alloc] is any allocator that hands out free
    addresses, also ones used before; [okeep]/[rkeep] say what the LRUs keep; [right_first]
    is the order of evaluation of C++ arguments; SHIFT is PyLong_SHIFT. *)
Theorem C81_collector_and_caches_are_invisible :
  forall (A : Type) (eqd : forall x y : A, {x = y} + {x <> y}) (differs : A) alloc frames okeep rkeep right_first SHIFT cs,
  (forall t l, ~ In (alloc t l) l) -> (Z.to_nat NB + 2 <= frames)%nat -> 0 < SHIFT -> SHIFT mod 2 = 0 -> xoks [] cs ->
  exists s, c_run eqd alloc frames okeep rkeep right_first SHIFT cs (c_init alloc differs) = Fine s /\
  tidy eqd (ms s) (holders (perm alloc) s) /\
  List.length (slots s) = List.length (xexprs [] cs) /\
  (forall k, holds (fold_left xlive cs []) k <-> exists r, nth_error (slots s) k = Some (Some r)) /\
  (forall k r e, nth_error (slots s) k = Some (Some r) -> nth_error (xexprs [] cs) k = Some e ->
     exists b, crep (mem (ms s)) r b /\ beval eqd differs e = Ok b /\ forall p, bmeans differs e p (denote b p)) /\
  (forall i j ri rj ei ej bi bj, nth_error (slots s) i = Some (Some ri) -> nth_error (slots s) j = Some (Some rj) ->
     nth_error (xexprs [] cs) i = Some ei -> nth_error (xexprs [] cs) j = Some ej ->
     beval eqd differs ei = Ok bi -> beval eqd differs ej = Ok bj ->
     (ri = rj <-> forall p, denote bi p = denote bj p)).
Proof.
  intros A eqd differs alloc frames okeep rkeep rf SHIFT cs Ha Hf Hs1 Hs2 Hc.
  assert (Hf1 : (1 <= frames)%nat) by lia.
  destruct (c_run_ok eqd differs alloc Ha frames okeep rkeep rf SHIFT Hf1 Hs1 Hs2 Hf cs (c_init alloc differs) []
    (eok_init eqd differs alloc frames okeep rkeep SHIFT) (Forall2_nil _) Hc) as [s [E [H [L F]]]].
  pose proof (e_tidy _ _ _ _ _ _ H) as T. rewrite app_nil_r in T. change (roots alloc s) with (holders (perm alloc) s) in T.
  exists s. split; [exact E|]. split; [exact T|]. split; [eapply Forall2_len; exact F|]. split; [|split].
  - intros k. change (held_map (slots (c_init alloc differs))) with (@nil bool) in L. rewrite <- L. unfold holds, held_map.
    rewrite nth_error_map. destruct (nth_error (slots s) k) as [[r|]|]; cbn [option_map]; split; try congruence; eauto; intros [r' Hr']; congruence.
  - intros k r e Hk He. destruct (Forall2_at _ _ _ F k (Some r) e Hk He) as [Ok' [b [Eb Rb]]]. exists b. split; [auto|]. split; [auto|].
    destruct (beval_total eqd differs e Ok') as [b' [Eb' [_ D]]]. rewrite Eb in Eb'. injection Eb' as <-. exact D.
  - intros i j ri rj ei ej bi bj Hi Hj Hei Hej Ebi Ebj.
    destruct (Forall2_at _ _ _ F _ _ _ Hi Hei) as [Oki [bi' [E1 R1]]]. destruct (Forall2_at _ _ _ F _ _ _ Hj Hej) as [Okj [bj' [E2 R2]]].
    rewrite Ebi in E1. injection E1 as <-. rewrite Ebj in E2. injection E2 as <-.
    rewrite <- (api_equality eqd differs ei ej bi bj); auto. split.
    + intros ->. eapply crep_fun; eauto.
    + intros ->. eapply crep_inj; eauto.
Qed.

(** Nothing leaks: after a collection the process holds the nodes reached from the client's
    BDDs, the caches and IS_DIFFERING, and no other. *)
Theorem C81_nothing_leaks :
  forall (A : Type) (eqd : forall x y : A, {x = y} + {x <> y}) (differs : A) alloc frames okeep rkeep right_first SHIFT cs,
  (forall t l, ~ In (alloc t l) l) -> (Z.to_nat NB + 2 <= frames)%nat -> 0 < SHIFT -> SHIFT mod 2 = 0 -> xoks [] cs ->
  exists s, c_run eqd alloc frames okeep rkeep right_first SHIFT (cs ++ [XGc]) (c_init alloc differs) = Fine s /\
    forall x, mem (ms s) x <> None <-> reached (mem (ms s)) (holders (perm alloc) s) x.
Proof.
  intros A eqd differs alloc frames okeep rkeep rf SHIFT cs Ha Hf Hs1 Hs2 Hc.
  destruct (C81_collector_and_caches_are_invisible A eqd differs alloc frames okeep rkeep rf SHIFT cs) as [s [E [T _]]]; auto.
  unfold c_run in *. rewrite cfold_app, E. cbn [cbind cfold c_step]. unfold on_ms.
  destruct (gc_ok eqd frames ltac:(lia) (ms s) _ T) as [m' [-> [T' [K [F _]]]]]. cbn [cbind]. eexists. split; [reflexivity|].
  cbn [with_ms ms]. change (holders (perm alloc) (with_ms s m')) with (holders (perm alloc) s). intros x. split.
  - intros Hx. eapply reached_stays; [exact K|]. auto.
  - intros Hx. eapply reached_live; eauto.
Qed.

(** Two processes with different allocators, cache sizes, evaluation orders and thresholds,
    collecting at different times, agree on which BDDs are equal. *)
Theorem C81_timing_of_collections_is_irrelevant :
  forall (A : Type) (eqd : forall x y : A, {x = y} + {x <> y}) (differs : A)
    alloc frames okeep rkeep rf SHIFT cs s alloc' frames' okeep' rkeep' rf' SHIFT' cs' s',
  (forall t l, ~ In (alloc t l) l) -> (forall t l, ~ In (alloc' t l) l) ->
  (Z.to_nat NB + 2 <= frames)%nat -> (Z.to_nat NB + 2 <= frames')%nat ->
  0 < SHIFT -> SHIFT mod 2 = 0 -> 0 < SHIFT' -> SHIFT' mod 2 = 0 -> xoks [] cs -> xoks [] cs' ->
  c_run eqd alloc frames okeep rkeep rf SHIFT cs (c_init alloc differs) = Fine s ->
  c_run eqd alloc' frames' okeep' rkeep' rf' SHIFT' cs' (c_init alloc' differs) = Fine s' ->
  forall i j i' j' e f ri rj ri' rj',
    nth_error (xexprs [] cs) i = Some e -> nth_error (xexprs [] cs') i' = Some e ->
    nth_error (xexprs [] cs) j = Some f -> nth_error (xexprs [] cs') j' = Some f ->
    nth_error (slots s) i = Some (Some ri) -> nth_error (slots s) j = Some (Some rj) ->
    nth_error (slots s') i' = Some (Some ri') -> nth_error (slots s') j' = Some (Some rj') ->
    (ri = rj <-> ri' = rj').
Proof.
  intros A eqd differs alloc frames okeep rkeep rf SHIFT cs s alloc' frames' okeep' rkeep' rf' SHIFT' cs' s'
    Ha Ha' Hf Hf' S1 S2 S1' S2' C C' E E' i j i' j' e f ri rj ri' rj' He He' Hfe Hfe' Ri Rj Ri' Rj'.
  destruct (C81_collector_and_caches_are_invisible A eqd differs alloc frames okeep rkeep rf SHIFT cs) as [x [X [_ [_ [_ [M Q]]]]]]; auto.
  destruct (C81_collector_and_caches_are_invisible A eqd differs alloc' frames' okeep' rkeep' rf' SHIFT' cs') as [x' [X' [_ [_ [_ [M' Q']]]]]]; auto.
  rewrite E in X. injection X as <-. rewrite E' in X'. injection X' as <-.
  destruct (M i ri e Ri He) as [be [_ [Be _]]], (M j rj f Rj Hfe) as [bf [_ [Bf _]]].
  rewrite (Q _ _ _ _ _ _ _ _ Ri Rj He Hfe Be Bf), (Q' _ _ _ _ _ _ _ _ Ri' Rj' He' Hfe' Be Bf). reflexivity.
Qed.

(** *** C82: the threshold *)
(** Non-negative numbers are accepted and decide when an operation collects: never for 0,
    otherwise when NODE_CACHE holds more nodes. *)
Theorem C82_threshold_partial : forall (A : Type) (eqd : forall x y : A, {x = y} + {x <> y}) frames n (s : est A),
  0 <= n ->
  fst (set_cleanup_threshold n s) = false /\
  let s' := snd (set_cleanup_threshold n s) in
  ms s' = ms s /\ oc s' = oc s /\ rc s' = rc s /\ slots s' = slots s /\
  (n = 0 \/ Z.of_nat (List.length (tbl (ms s))) <= n -> memory_cleanup eqd frames s' = Fine s') /\
  (0 < n < Z.of_nat (List.length (tbl (ms s))) -> memory_cleanup eqd frames s' = on_ms (gc_node_cache eqd frames) s').
Proof.
  intros A eqd frames n s Hn. cbn [set_cleanup_threshold fst snd]. split; [lia|]. cbn zeta. cbn [ms oc rc slots]. do 4 (split; [reflexivity|]).
  unfold memory_cleanup. cbn [thr ms]. split; intros H.
  - replace (negb (n =? 0) && (n <? Z.of_nat (List.length (tbl (ms s))))) with false by lia. reflexivity.
  - replace (negb (n =? 0) && (n <? Z.of_nat (List.length (tbl (ms s))))) with true by lia. reflexivity.
Qed.

(** Examples: a memory with IS_DIFFERING, two actions and three tests. The client holds the
    BDD at 4; 5 and 6 are garbage, 6 above 5 above the shared node 3. *)
Definition gc_mem (x : nat) : option (cell string) :=
  match x with
  | 0 => Some (CTerm "DIFFERS") | 1 => Some (CTerm "drop") | 2 => Some (CTerm "fwd")
  | 3 => Some (CNode 9 (Some 1) None true) | 4 => Some (CNode 5 (Some 3) (Some 1) true)
  | 5 => Some (CNode 7 (Some 2) (Some 3) true) | 6 => Some (CNode 2 (Some 5) None true)
  | _ => None
  end%nat.
Definition gc_m : mst string :=
  mkm gc_mem (fun x => nth x [5; 4; 3; 4; 3; 3; 2] 0) [0; 1; 2; 3; 4; 5; 6]%nat 7.
Definition gc_held : list ref := [Some 0; Some 0; Some 0; Some 4]%nat.
Example gc_m_tidy : tidy string_dec gc_m gc_held.
Proof.
  assert (D : forall x, gc_mem x <> None -> In x [0; 1; 2; 3; 4; 5; 6]%nat).
  { intros x Hx. do 7 (destruct x as [|x]; [cbn; tauto|]). now destruct Hx. }
  constructor.
  - cbn [tbl gc_m]. repeat constructor; cbn [In]; lia.
  - intros x. cbn [tbl mem gc_m]. split; [|apply D]. cbn [In]. intros H. repeat (destruct H as [<-|H]; [discriminate|]). destruct H.
  - intros x n z o hn H. cbn [mem gc_m] in *. assert (Hx : gc_mem x <> None) by congruence. apply D in Hx. cbn [In] in Hx.
    rewrite NB_val.
    destruct Hx as [<-|[<-|[<-|[<-|[<-|[<-|[<-|[]]]]]]]]; cbn [gc_mem] in H; try discriminate H; injection H as <- <- <- <-;
      (split; [lia|]); (split; [discriminate|]); (split; [first [exact Logic.I|eexists; split; [reflexivity|vm_compute; reflexivity]]|]);
      (split; [first [exact Logic.I|eexists; split; [reflexivity|vm_compute; reflexivity]]|]); reflexivity.
  - intros x y c d Hx Hy He. cbn [mem gc_m] in *.
    assert (Lx : gc_mem x <> None) by congruence. apply D in Lx. assert (Ly : gc_mem y <> None) by congruence. apply D in Ly. cbn [In] in Lx, Ly.
    destruct Lx as [<-|[<-|[<-|[<-|[<-|[<-|[<-|[]]]]]]]]; injection Hx as <-;
      destruct Ly as [<-|[<-|[<-|[<-|[<-|[<-|[<-|[]]]]]]]]; injection Hy as <-; first [reflexivity|discriminate He].
  - intros x Hx. cbn [gc_held In] in Hx. repeat (destruct Hx as [Hx|Hx]; [injection Hx as <-; discriminate|]). destruct Hx.
  - intros x Hx. apply D in Hx. cbn [In] in Hx. repeat (destruct Hx as [<-|Hx]; [reflexivity|]). destruct Hx.
Qed.
Definition alive_at (m : mst string) : list (nat * Z) :=
  map (fun x => (x, cnt m x)) (filter (fun x => match mem m x with Some _ => true | None => false end) (seq 0 8)).
(** "fwd" and the nodes 5 and 6 go; the count of the shared node 3 drops. *)
Example gc_m_collected : match gc_node_cache string_dec 1 gc_m with
  | Fine m => (tbl m, alive_at m) = ([0%nat; 1%nat; 3%nat; 4%nat], [(0%nat, 5); (1%nat, 4); (3%nat, 3); (4%nat, 3)])
  | Fault _ => False end.
Proof. vm_compute. reflexivity. Qed.

(** A client working from that memory with threshold 1, an allocator that takes the lowest
    free address, and LRUs that keep nothing: dropping and operating reuses addresses. *)
Definition low_alloc (t : nat) (l : list nat) : nat :=
  hd (S (list_max l)) (filter (fun x => negb (existsb (Nat.eqb x) l)) (seq 0 (S (list_max l)))).
Lemma low_alloc_free t l : ~ In (low_alloc t l) l.
Proof.
  unfold low_alloc. destruct (filter _ _) as [|x r] eqn:E; cbn [hd].
  - intros H. pose proof (proj1 (list_max_le l (list_max l)) (Nat.le_refl _)) as G. rewrite Forall_forall in G. specialize (G _ H). lia.
  - assert (H : In x (x :: r)) by (now left). rewrite <- E in H. apply filter_In in H as [_ H]. intros Hin.
    rewrite (proj2 (existsb_exists (Nat.eqb x) l)) in H; [discriminate|]. exists x. split; [auto|apply Nat.eqb_refl].
Qed.
Definition gc_s : est string := mke gc_m [] [] [Some (Some 4%nat)] 1 0.
Definition gc_prog : list (ccmd string) := [XEmpty; XOp Merge 0 1; XOp Sub 0 1; XOp Diff 1 0; XDrop 0; XDrop 2; XDrop 3; XGc; XThreshold 0; XOp Diff 4 1].
Example gc_run : match c_run string_dec low_alloc 100 (fun _ _ => false) (fun _ _ => false) true 30 gc_prog gc_s with
  | Fine s => slots s = [None; Some None; None; None; Some (Some 0); Some (Some 0)]%nat
  | Fault _ => False end.
Proof. vm_compute. reflexivity. Qed.
Example gc_prog_ok : forall w1 w2, wc_ok w1 -> wc_ok w2 ->
  xoks [] [XWc w1 "drop"; XWc w2 "fwd"; XOp Merge 0 1; XDrop 0; XThreshold 3; XOp Diff 2 1; XDrop 2; XGc; XWc w1 "drop"; XOp Inter 4 1].
Proof. intros. cbn. unfold holds. cbn. repeat split; auto. Qed.

(** A rejected threshold is in force all the same: from then on every operation collects. *)
Theorem C82_rejected_threshold_refuted : exists (s : est string) n,
  fst (set_cleanup_threshold n s) = true /\
  thr (snd (set_cleanup_threshold n s)) <> thr s /\
  memory_cleanup string_dec 1 s = Fine s /\
  match memory_cleanup string_dec 1 (snd (set_cleanup_threshold n s)) with
  | Fine s' => tbl (ms s') <> tbl (ms s)
  | Fault _ => False
  end.
Proof.
  exists (mke gc_m [] [] [Some (Some 4%nat)] 1000000 0), (-1). split; [reflexivity|]. split; [discriminate|]. split; [reflexivity|].
  vm_compute. discriminate.
Qed.

Print Assumptions C80_collector_frees_exactly_the_garbage.
Print Assumptions C80_collecting_twice_is_idle.
Print Assumptions C81_collector_and_caches_are_invisible.
Print Assumptions C81_nothing_leaks.
Print Assumptions C81_timing_of_collections_is_irrelevant.
Print Assumptions C82_threshold_partial.
Print Assumptions C82_rejected_threshold_refuted.
