(** Theorems for C70: the layered drawing. *)
From Coq Require Import QArith Lqa.
From Coq Require Import Lia Permutation Sorted ZifyBool ZifyNat.
From Verif Require Import SpecBdd Deps SpecDeps Normalise Layout LayoutProofs SpecLayout LayoutRules LayoutRulesProofs PropDepsMulti.
Local Open Scope list_scope.
Local Open Scope nat_scope.

(** ** C70 *)
(** With any flags: a drawing in which children are below their parents. *)
Theorem C70_children_below : forall edges key gid scale push_down cluster nodes, (0 < scale)%Q -> drawable edges key gid nodes ->
  exists pos, directed_layout edges key gid scale push_down cluster nodes = Ok pos /\ drawing edges scale nodes pos.
Proof.
  intros edges key gid scale pd cl nodes Hs (Ne & N & G & K).
  destruct (make_levels_total edges key gid pd nodes Ne G) as (L0 & E0).
  assert (E : exists pos, directed_layout edges key gid scale pd cl nodes = Ok pos) by (unfold directed_layout; rewrite E0; cbn [rbind]; eauto).
  destruct E as (pos & E). exists pos. split; [exact E|]. destruct (layout_levels edges key gid scale pd cl nodes pos N G K E) as (L & NL & IL & Ly & ->). clear E E0 L0.
  assert (At : forall x px py, In (x, (px, py)) (spread scale (List.length L) 0 L) -> exists k l j, nth_error L k = Some l /\ nth_error l j = Some x /\
    k < List.length L /\ j < List.length l /\ px = xq scale (List.length l) j /\ py = yq scale (List.length L) k).
  { intros x px py H. apply spread_in in H as (k & l & j & A & B & [= -> ->]). exists k, l, j. split; [auto|]. split; [auto|]. split; [apply nth_error_Some; congruence|]. split; [apply nth_error_Some; congruence|auto]. }
  split; [now rewrite spread_fst|]. split; [intros x; rewrite spread_fst; apply IL|]. split; [|split].
  - intros x px py H. apply At in H as (k & l & j & A & B & Hk & Hj & -> & ->). destruct (xq_range scale _ _ Hs Hj), (yq_range scale _ _ Hs Hk). repeat split; assumption.
  - intros a ax ay b bx by_ Ha Hb D [Ex Ey]. apply At in Ha as (k & l & j & A & B & Hk & Hj & -> & ->), Hb as (k' & l' & j' & A' & B' & Hk' & Hj' & -> & ->).
    destruct (Nat.lt_trichotomy k k') as [Lt|[->|Lt]].
    + apply (q_inj _ _ (yq_mono scale _ _ _ Hs Lt Hk')). now symmetry.
    + rewrite A in A'. injection A' as <-. destruct (Nat.lt_trichotomy j j') as [Lt|[->|Lt]].
      * exact (q_inj _ _ (xq_mono scale _ _ _ Hs Lt Hj') Ex).
      * congruence.
      * apply (q_inj _ _ (xq_mono scale _ _ _ Hs Lt Hj)). now symmetry.
    + exact (q_inj _ _ (yq_mono scale _ _ _ Hs Lt Hk) Ey).
  - intros a ax ay b bx by_ He Ha Hb. apply At in Ha as (k & l & j & A & B & Hk & Hj & -> & ->), Hb as (k' & l' & j' & A' & B' & Hk' & Hj' & -> & ->).
    apply yq_mono; auto. apply (Ly a b); [auto|exists l|exists l']; (split; [auto|]); eapply nth_error_In; eauto.
Qed.

(** Without push_down (and without groups) every node is as high as the edges allow: no numbering
    of the nodes that increases along the edges gives it a smaller row. *)
Theorem C70_highest : forall edges key scale cluster nodes, drawable edges key (fun _ => None) nodes ->
  exists pos h row, directed_layout edges key (fun _ => None) scale false cluster nodes = Ok pos /\
  forall x px py, In (x, (px, py)) pos -> row x < h /\
    (py == (1 - (inject_Z (Z.of_nat (row x)) + (1 # 2)) / inject_Z (Z.of_nat h)) * scale)%Q /\
    forall f : nat -> nat, (forall a b, In (a, b) edges -> f a < f b) -> row x <= f x.
Proof.
  intros edges key scale cl nodes (Ne & N & _ & K).
  assert (K' : forall a b, In (a, b) edges -> In a nodes -> In b nodes -> klt key a b) by (intros a b He _ _; apply (K a b He)).
  destruct (layout_nodes_spec edges key (fun _ => None) false nodes N K') as (Ly & P). assert (Hi := layout_highest edges key (fun _ => None) nodes N K').
  set (L := layout_nodes edges key false nodes) in *.
  assert (NL : NoDup (List.concat L)) by (eapply Permutation_NoDup; [apply Permutation_sym, P|auto]).
  set (L' := if cl then cluster_levels edges L else L).
  assert (Lv : forall x n, lev L' x n -> lev L x n) by (unfold L'; destruct cl; [apply perm_levels, cluster_perm|auto]).
  assert (Le : List.length L' = List.length L).
  { unfold L'. destruct cl; [|auto]. assert (F := cluster_perm edges L). clear - F. induction F; cbn [List.length]; auto. }
  assert (Hf : forall f : nat -> nat, (forall a b, In (a, b) edges -> f a < f b) -> forall n x, lev L x n -> n <= f x).
  { intros f Hf. induction n as [|n IH]; intros x Hx; [lia|]. destruct (Hi x (S n) Hx) as [X|(a & m & He & Ha & [= ->])]; [discriminate|]. specialize (IH a Ha). specialize (Hf a x He). lia. }
  exists (spread scale (List.length L') 0 L'), (List.length L').
  exists (fun x => fold_right (fun n acc => match nth_error L n with Some l => if nmem x l then n else acc | None => acc end) 0 (seq 0 (List.length L))).
  split.
  { unfold directed_layout, make_levels. destruct nodes as [|x t]; [congruence|]. reflexivity. }
  intros x px py H. apply spread_in in H as (k & l & j & A & B & [= -> ->]).
  assert (Hx : lev L x k) by (apply Lv; exists l; split; [auto|eapply nth_error_In; eauto]).
  assert (Er : fold_right (fun n acc => match nth_error L n with Some l => if nmem x l then n else acc | None => acc end) 0 (seq 0 (List.length L)) = k).
  { assert (Hk : In k (seq 0 (List.length L))) by (apply in_seq; apply lev_bound in Hx; lia).
    induction (seq 0 (List.length L)) as [|n ns IH]; [destruct Hk|]. cbn [fold_right]. destruct (nth_error L n) as [ln|] eqn:En.
    - destruct (nmem x ln) eqn:Em; [apply nmem_in in Em; apply (lev_unique L NL x); [now exists ln|auto]|].
      destruct Hk as [->|Hk]; [|auto]. destruct Hx as (l2 & E2 & I2). assert (l2 = ln) by congruence. subst. apply nmem_in in I2. congruence.
    - destruct Hk as [->|Hk]; [|auto]. destruct Hx as (l2 & E2 & _). congruence. }
  rewrite Er. assert (Hb := lev_bound _ _ _ Hx). split; [lia|]. split; [|intros f F; eapply Hf; eauto].
  unfold yq. cbn [plus]. rewrite Le. assert (X := q_mono 0 (List.length L) ltac:(lia)). change (inject_Z (Z.of_nat 0)) with 0%Q in X. field. lra.
Qed.

(** Without nodes the default arguments fail. *)
Theorem C70_empty : forall edges key gid scale push_down cluster, directed_layout edges key gid scale push_down cluster [] = Err StopIteration.
Proof. reflexivity. Qed.

(** "nodes are placed at the lowest possible point in the graph" (push_down) is not so: a node is
    moved down by one level only, also when nothing is below it. *)
Definition chain3 : list (nat * nat) := [(0, 1); (1, 2)].
Definition key3 (x : nat) : Z * Z := (0, Z.of_nat x)%Z.
Lemma chain3_drawable : drawable chain3 key3 (fun _ => None) [0; 1; 2; 3].
Proof.
  split; [discriminate|]. split; [repeat constructor; cbn; intuition discriminate|]. split; [right; auto|].
  intros a b [[= <- <-]|[[= <- <-]|[]]]; (split; [cbn; auto 6|]); (split; [cbn; auto 6|]); right; cbn; lia.
Qed.
Theorem C70_push_down_lowest_refuted : exists edges key nodes pos x px py y px' py',
  drawable edges key (fun _ => None) nodes /\ directed_layout edges key (fun _ => None) 1 true true nodes = Ok pos /\
  (forall z, ~ In (x, z) edges) /\ In (x, (px, py)) pos /\ In (y, (px', py')) pos /\ (py' < py)%Q.
Proof.
  exists chain3, key3, [0; 1; 2; 3]. eexists _, 3, _, _, 2, _, _. split; [apply chain3_drawable|]. split; [vm_compute; reflexivity|].
  split; [intros z [H|[H|[]]]; discriminate H|]. split; [right; right; left; reflexivity|]. split; [right; right; right; left; reflexivity|]. vm_compute. reflexivity.
Qed.

(** The dependencies of a ruleset (C67) can be drawn, for any grouping: build_graph. The edges drawn
    are the dependencies, without those of table misses (priority 0) if asked for, and the nodes are
    their end points. Without edges the layout fails. *)
Definition regular (rules : list rule) (i : nat) : Prop := forall R, nth_error rules i = Some R -> priority (rcore R) <> 0%Z.
Theorem C70_ruleset_drawing : forall rules (no_table_miss : bool) g deps,
  (forall R t, In R rules -> goto_table (inst (rcore R)) = Some t -> table (rcore R) < t)%Z ->
  (forall i j, In (i, j) deps -> (exists p, falls rules i j p) \/ (exists p, enters rules i j p)) ->
  exists drawn, (forall i j, In (i, j) drawn <-> In (i, j) deps /\ (no_table_miss = true -> regular rules i /\ regular rules j)) /\
  ((drawn = [] /\ draw rules no_table_miss g deps = Err StopIteration) \/
   (drawn <> [] /\ exists nodes pos, (forall x, In x nodes <-> exists y, In (x, y) drawn \/ In (y, x) drawn) /\
      draw rules no_table_miss g deps = Ok pos /\ drawing drawn 1 nodes pos)).
Proof.
  intros rules nm g deps Hg Hd. set (drawn := if nm then drop_miss rules deps else deps). exists drawn. split.
  - intros i j. unfold drawn. destruct nm; [|split; [intros H; split; [exact H|discriminate]|now intros [H _]]].
    unfold drop_miss. rewrite filter_In. cbn [fst snd]. rewrite andb_true_iff.
    assert (Q : forall i, match nth_error rules i with Some R => negb (priority (rcore R) =? 0)%Z | None => true end = true <-> regular rules i).
    { intros k. unfold regular. destruct (nth_error rules k) as [R|]; [|split; [intros _ ? [=]|reflexivity]].
      rewrite negb_true_iff, Z.eqb_neq. split; [intros H ? [= <-]; exact H|intros H; now apply H]. }
    rewrite !Q. split; [intros [A B]; split; [exact A|auto]|intros [A B]; split; [exact A|auto]].
  - unfold draw. fold drawn. destruct drawn as [|d ds] eqn:Ed; [left; split; reflexivity|]. right. rewrite <- Ed.
    assert (Ne : drawn <> []) by congruence. split; [exact Ne|]. exists (graph_nodes rules drawn).
    destruct (C70_children_below drawn (rule_key rules) (graph_groups rules (graph_nodes rules drawn) g) 1 true true (graph_nodes rules drawn)) as (pos & E & D); [reflexivity| |].
    { apply draw_drawable; [exact Ne|].
      apply deps_downward; [exact Hg|]. intros i j H. apply Hd. unfold drawn in H. destruct nm; [now apply drop_miss_in in H|exact H]. }
    exists pos. split; [|now split].
    intros x. rewrite graph_nodes_in. split; [intros (a & b & H & [-> | ->]); eauto|intros (y & [H|H]); eauto 6].
Qed.

(** *** Examples *)
(** a diamond, a second group below it, and both flags *)
Definition ex70_edges : list (nat * nat) := [(0, 1); (0, 2); (1, 3); (2, 3); (0, 3); (3, 4); (2, 5)].
Definition ex70_key (x : nat) : Z * Z := if (x <? 4)%nat then (0, Z.of_nat x)%Z else (1, - Z.of_nat x)%Z.
Definition ex70_gid (x : nat) : option Z := Some (if (x <? 4)%nat then 1%Z else 2%Z).
Example C70_ex_drawable : drawable ex70_edges ex70_key ex70_gid [3; 0; 5; 1; 2; 4] /\ drawable ex70_edges ex70_key (fun _ => None) [3; 0; 5; 1; 2; 4].
Proof.
  split; (split; [discriminate|]; split; [repeat constructor; cbn; intuition discriminate|]; split; [first [left; intros x _; unfold ex70_gid; discriminate|right; intros x _; reflexivity]|];
    intros a b H; split; [|split]; cbn in H; repeat (destruct H as [[= <- <-]|H]; [cbn; try tauto; unfold sooner; cbn; lia|]); destruct H).
Qed.
Example C70_ex : exists pos, directed_layout ex70_edges ex70_key ex70_gid 1 true true [3; 0; 5; 1; 2; 4] = Ok pos /\
  map fst pos = [0; 1; 2; 3; 5; 4] /\ map (fun e => Qred (snd (snd e))) pos = [7 # 8; 5 # 8; 5 # 8; 3 # 8; 1 # 8; 1 # 8]%Q.
Proof. eexists. split; [vm_compute; reflexivity|]. split; vm_compute; reflexivity. Qed.
Example C70_ex_rules : downward ex67 [(0, 1); (0, 3)] /\ (exists pos, draw ex67 false GroupTable [(0, 1); (0, 3)] = Ok pos /\
  map (fun e => (fst e, Qred (snd (snd e)))) pos = [(0, (5 # 6)%Q); (1, (1 # 2)%Q); (3, (1 # 6)%Q)]).
Proof.
  split; [|eexists; split; vm_compute; reflexivity]. intros a b [[= <- <-]|[[= <- <-]|[]]]; (split; [cbn; lia|]; split; [cbn; lia|]); vm_compute; tauto.
Qed.

Print Assumptions C70_children_below.
Print Assumptions C70_highest.
Print Assumptions C70_empty.
Print Assumptions C70_push_down_lowest_refuted.
Print Assumptions C70_ruleset_drawing.
