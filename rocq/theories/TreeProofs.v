(** Proofs about node_to_tree and simplify_tree. *)
From Coq Require Import Lia Permutation Sorted.
From Coq Require Import ZifyBool ZifyNat ZifyN.
From Verif Require Import Compress SpecCompress.
Local Open Scope string_scope.
Local Open Scope list_scope.
Local Open Scope nat_scope.
Local Opaque NB WC_FULLWC layout oxm_fields registry_init.

(** ** Sets *)
Lemma nin_in x l : nin x l = true <-> In x l.
Proof. unfold nin. rewrite existsb_exists. split; [intros (y & H & E); apply Nat.eqb_eq in E; now subst|]. intros H. exists x. split; [exact H|apply Nat.eqb_refl]. Qed.
Lemma nin_out x l : nin x l = false <-> ~ In x l.
Proof. rewrite <- nin_in. destruct (nin x l); intuition congruence. Qed.
Lemma set_add_in s x y : In y (set_add s x) <-> In y s \/ y = x.
Proof.
  unfold set_add. fold (nin x s). destruct (nin x s) eqn:E.
  - apply nin_in in E. intuition congruence.
  - rewrite in_app_iff. cbn [In]. intuition congruence.
Qed.
Lemma set_add_nodup s x : NoDup s -> NoDup (set_add s x).
Proof.
  unfold set_add. fold (nin x s). destruct (nin x s) eqn:E; [auto|]. intros H. apply nin_out in E.
  eapply Permutation_NoDup; [apply Permutation_cons_append|]. now constructor.
Qed.
Lemma to_set_ok l : NoDup (to_set l) /\ forall x, In x (to_set l) <-> In x l.
Proof.
  unfold to_set. assert (G : forall l s, NoDup s -> NoDup (fold_left set_add l s) /\ forall x, In x (fold_left set_add l s) <-> In x s \/ In x l).
  { clear l. induction l as [|a l IH]; intros s H; cbn [fold_left]; [split; [exact H|cbn; intuition auto]|].
    destruct (IH (set_add s a) (set_add_nodup _ _ H)) as [A B]. split; [exact A|]. intros x. rewrite B, set_add_in. cbn [In]. intuition auto. }
  destruct (G l [] (NoDup_nil _)) as [A B]. split; [exact A|]. intros x. rewrite B. cbn. intuition auto.
Qed.
Lemma to_set_in l x : In x (to_set l) <-> In x l. Proof. apply to_set_ok. Qed.
Lemma to_set_nodup l : NoDup (to_set l). Proof. apply to_set_ok. Qed.
Lemma inter_in a b x : In x (inter a b) <-> In x a /\ In x b.
Proof. unfold inter. now rewrite filter_In, nin_in. Qed.
Lemma minus_in a b x : In x (minus a b) <-> In x a /\ ~ In x b.
Proof. unfold minus. rewrite filter_In, negb_true_iff, nin_out. reflexivity. Qed.
Lemma seteq_in a b : seteq a b = true <-> forall x, In x a <-> In x b.
Proof.
  unfold seteq. rewrite andb_true_iff, !forallb_forall. split.
  - intros [A B] x. split; intros H; [apply A in H|apply B in H]; now apply nin_in in H.
  - intros H. split; intros x Hx; apply nin_in; now apply H.
Qed.
Lemma rall_all {A B} (f : A -> result B) (P : A -> B -> Prop) l :
  (forall x, In x l -> exists y, f x = Ok y /\ P x y) -> exists ys, rall (map f l) = Ok ys /\ Forall2 P l ys.
Proof.
  induction l as [|x l IH]; intros H; cbn [map rall]; [exists []; auto|].
  destruct (H x (or_introl eq_refl)) as (y & -> & Hy). destruct IH as (ys & -> & F); [intros z Hz; apply H; now right|].
  cbn [rbind]. exists (y :: ys). auto.
Qed.
Lemma rall_inv {A B} (f : A -> result B) l : forall ys, rall (map f l) = Ok ys -> Forall2 (fun x y => f x = Ok y) l ys.
Proof.
  induction l as [|x l IH]; cbn [map rall]; intros ys H; [injection H as <-; constructor|].
  destruct (f x) as [y|e] eqn:E; [|discriminate H]. cbn [rbind] in H. destruct (rall (map f l)) as [zs|e]; [|discriminate H]. cbn [rbind] in H.
  injection H as <-. constructor; auto.
Qed.

(** ** The tree *)
Section Fold.
  Let step (t : tree) (e : edge) : tree := let (parent, child) := e in
    mkTree (upd (tparents t) child (tparents t child ++ [parent])) (upd (tchildren t) parent (tchildren t parent ++ [child])).
  Lemma tree_fold deps : forall t,
    (forall b, tparents (fold_left step deps t) b = tparents t b ++ map fst (filter (fun e => snd e =? b) deps)) /\
    (forall a, tchildren (fold_left step deps t) a = tchildren t a ++ map snd (filter (fun e => fst e =? a) deps)).
  Proof.
    induction deps as [|[p c] deps IH]; intros t; cbn [fold_left filter map]; [split; intros; now rewrite app_nil_r|].
    destruct (IH (step t (p, c))) as [A B]. split; [intros b; rewrite A|intros a; rewrite B]; cbn [step tparents tchildren fst snd]; unfold upd.
    - rewrite (Nat.eqb_sym b c). destruct (Nat.eqb_spec c b) as [->|N]; cbn [map fst]; [now rewrite <- app_assoc|reflexivity].
    - rewrite (Nat.eqb_sym a p). destruct (Nat.eqb_spec p a) as [->|N]; cbn [map snd]; [now rewrite <- app_assoc|reflexivity].
  Qed.
End Fold.
Lemma tree_parents deps b : tparents (node_to_tree deps) b = map fst (filter (fun e => snd e =? b) deps).
Proof. unfold node_to_tree. now rewrite (proj1 (tree_fold deps _)). Qed.
Lemma tree_children deps a : tchildren (node_to_tree deps) a = map snd (filter (fun e => fst e =? a) deps).
Proof. unfold node_to_tree. now rewrite (proj2 (tree_fold deps _)). Qed.
Lemma tree_parents_in deps a b : In a (tparents (node_to_tree deps) b) <-> In (a, b) deps.
Proof.
  rewrite tree_parents, in_map_iff. split.
  - intros ([x y] & E & H). apply filter_In in H as [H E2]. apply Nat.eqb_eq in E2. cbn [fst snd] in *. now subst.
  - intros H. exists (a, b). split; [reflexivity|]. apply filter_In. split; [exact H|apply Nat.eqb_refl].
Qed.
Lemma tree_children_in deps a b : In b (tchildren (node_to_tree deps) a) <-> In (a, b) deps.
Proof.
  rewrite tree_children, in_map_iff. split.
  - intros ([x y] & E & H). apply filter_In in H as [H E2]. apply Nat.eqb_eq in E2. cbn [fst snd] in *. now subst.
  - intros H. exists (a, b). split; [reflexivity|]. apply filter_In. split; [exact H|apply Nat.eqb_refl].
Qed.
Lemma nodup_map_filter {A B} (f : A -> B) (q : A -> bool) l : NoDup l -> (forall x y, In x l -> In y l -> q x = true -> q y = true -> f x = f y -> x = y) -> NoDup (map f (filter q l)).
Proof.
  intros N H. induction N as [|x l Hx N IH]; cbn [filter map]; [constructor|].
  assert (IH' : NoDup (map f (filter q l))) by (apply IH; intros; apply H; auto; now right).
  destruct (q x) eqn:E; [|exact IH']. cbn [map]. constructor; [|exact IH'].
  intros X. apply in_map_iff in X as (y & Ey & Hy). apply filter_In in Hy as [Hy Qy]. apply Hx. rewrite (H x y); auto; [now left|now right].
Qed.

Definition edges (t : tree) (a b : nat) : Prop := In a (tparents t b).
Definition mirror (t : tree) : Prop := (forall b, NoDup (tparents t b)) /\ (forall a, NoDup (tchildren t a)) /\ forall a b, In a (tparents t b) <-> In b (tchildren t a).
Lemma tree_mirror deps : NoDup deps -> mirror (node_to_tree deps).
Proof.
  intros N. split; [|split].
  - intros b. rewrite tree_parents. apply nodup_map_filter; [exact N|]. intros [x y] [x' y'] _ _ H1 H2 H3. apply Nat.eqb_eq in H1, H2. cbn [fst snd] in *. congruence.
  - intros b. rewrite tree_children. apply nodup_map_filter; [exact N|]. intros [x y] [x' y'] _ _ H1 H2 H3. apply Nat.eqb_eq in H1, H2. cbn [fst snd] in *. congruence.
  - intros a b. now rewrite tree_parents_in, tree_children_in.
Qed.

Lemma lremove_ok x l : NoDup l -> In x l -> exists l', lremove x l = Ok l' /\ NoDup l' /\ forall y, In y l' <-> In y l /\ y <> x.
Proof.
  induction 1 as [|y l Hy N IH]; intros Hx; [destruct Hx|]. cbn [lremove]. destruct (Nat.eqb_spec x y) as [->|Ne].
  - exists l. split; [reflexivity|]. split; [exact N|]. intros z. cbn [In]. split; [intros H; split; [now right|congruence]|]. intros [[->|H] E]; [now elim E|exact H].
  - destruct Hx as [->|Hx]; [now elim Ne|]. destruct (IH Hx) as (l' & -> & N' & I'). exists (y :: l'). split; [reflexivity|]. split.
    + constructor; [|exact N']. rewrite I'. tauto.
    + intros z. cbn [In]. rewrite I'. intuition congruence.
Qed.

(** *** Paths *)
Lemma reaches_mono (E F : nat -> nat -> Prop) a b : (forall x y, E x y -> F x y) -> reaches E a b -> reaches F a b.
Proof. intros H. induction 1 as [x y K|x y z _ IH1 _ IH2]; [apply t_step; auto|eapply t_trans; eauto]. Qed.
Lemma reaches_last (E : nat -> nat -> Prop) a b : reaches E a b -> exists c, E c b /\ (a = c \/ reaches E a c).
Proof. induction 1 as [x y H|x y z H1 IH1 H2 IH2]; [eauto|]. destruct IH2 as (c & H & K). exists c. split; [exact H|]. right. destruct K as [K|K]; [now rewrite <- K|eapply t_trans; eauto]. Qed.
Lemma reaches_first (E : nat -> nat -> Prop) a b : reaches E a b -> exists c, E a c /\ (c = b \/ reaches E c b).
Proof. induction 1 as [x y H|x y z H1 IH1 H2 IH2]; [eauto|]. destruct IH1 as (c & H & K). exists c. split; [exact H|]. right. destruct K as [K|K]; [now rewrite K|eapply t_trans; eauto]. Qed.

Lemma remove_short x (l : list nat) : In x l -> List.length (remove Nat.eq_dec x l) < List.length l.
Proof.
  induction l as [|y l IH]; [intros []|]. cbn [remove List.length]. assert (L : List.length (remove Nat.eq_dec x l) <= List.length l).
  { clear. induction l as [|z l IH]; cbn [remove List.length]; [lia|]. destruct (Nat.eq_dec x z); cbn [List.length]; lia. }
  intros [->|H]; [destruct (Nat.eq_dec x x); [lia|congruence]|]. specialize (IH H). destruct (Nat.eq_dec x y); cbn [List.length]; lia.
Qed.
(** ancestors by recursion *)
Lemma get_parents_ok t : acyclic (edges t) -> forall fuel S0 x, (forall y, reaches (edges t) y x -> In y S0) -> List.length S0 < fuel ->
  exists l, get_parents fuel t x = Ok l /\ forall y, In y l <-> reaches (edges t) y x.
Proof.
  intros Ac. induction fuel as [|fuel IH]; intros S0 x HS L; [lia|]. cbn [get_parents].
  destruct (rall_all (get_parents fuel t) (fun q l => forall y, In y l <-> reaches (edges t) y q) (tparents t x)) as (ls & -> & F).
  { intros q Hq. apply (IH (remove Nat.eq_dec q S0)).
    - intros y Hy. apply in_in_remove; [intros ->; now apply (Ac q)|]. apply HS. eapply t_trans; [exact Hy|]. now apply t_step.
    - assert (K := remove_short q S0 (HS q (t_step _ _ _ _ Hq))). lia. }
  cbn [rbind]. eexists. split; [reflexivity|]. intros y. rewrite in_app_iff, in_concat. split.
  - intros [H|(l & H1 & H2)]; [now apply t_step|].
    assert (exists q, In q (tparents t x) /\ forall y, In y l <-> reaches (edges t) y q) as (q & Hq & K).
    { clear - F H1. induction F as [|q l' qs ls H F IH]; [destruct H1|]. destruct H1 as [<-|H1]; [exists q; cbn; auto|]. destruct (IH H1) as (q' & A & B). exists q'. cbn; auto. }
    apply K in H2. eapply t_trans; [exact H2|]. now apply t_step.
  - intros H. apply reaches_last in H as (c & Hc & [->|H]); [now left|]. right.
    assert (exists l, In l ls /\ forall y, In y l <-> reaches (edges t) y c) as (l & Hl & K).
    { clear - F Hc. unfold edges in Hc at 1. induction F as [|q l' qs ls H F IH]; [destruct Hc|]. destruct Hc as [<-|Hc]; [exists l'; cbn; auto|]. destruct (IH Hc) as (q' & A & B). exists q'. cbn; auto. }
    exists l. split; [exact Hl|]. now apply K.
Qed.

(** removing edges into [n] *)
Definition cut (E : nat -> nat -> Prop) (n : nat) (R : list nat) (a b : nat) : Prop := E a b /\ ~ (b = n /\ In a R).
Lemma remove_items n : forall R t, mirror t -> NoDup R -> (forall x, In x R -> In x (tparents t n)) ->
  exists t', rfold (fun t item =>
    do c <- lremove n (tchildren t item);
    let t := mkTree (tparents t) (upd (tchildren t) item c) in
    do p <- lremove item (tparents t n);
    Ok (mkTree (upd (tparents t) n p) (tchildren t))) R t = Ok t' /\ mirror t' /\ forall a b, edges t' a b <-> cut (edges t) n R a b.
Proof.
  induction R as [|x R IH]; intros t (N1 & N2 & M) NR HR.
  { exists t. split; [reflexivity|]. split; [split; auto|]. intros a b. unfold cut. cbn [In]. tauto. }
  cbn [rfold]. inversion NR as [|x' R' Hx NR']; subst x' R'. assert (Hin := HR x (or_introl eq_refl)).
  destruct (lremove_ok n (tchildren t x) (N2 x)) as (c & -> & Nc & Ic); [now apply M|]. cbn [rbind]. cbn [tparents].
  destruct (lremove_ok x (tparents t n) (N1 n) Hin) as (p & -> & Np & Ip). cbn [rbind tchildren].
  destruct (IH (mkTree (upd (tparents t) n p) (upd (tchildren t) x c))) as (t' & E & M' & K).
  - split; [|split]; cbn [tparents tchildren]; unfold upd.
    + intros b. destruct (Nat.eqb_spec b n); auto.
    + intros a. destruct (Nat.eqb_spec a x); auto.
    + intros a b. destruct (Nat.eqb_spec b n) as [->|Nb]; [rewrite Ip|]; (destruct (Nat.eqb_spec a x) as [->|Na]; [rewrite Ic|]); rewrite ?M; intuition congruence.
  - exact NR'.
  - intros y Hy. cbn [tparents]. unfold upd. rewrite Nat.eqb_refl. apply Ip. split; [apply HR; now right|]. intros ->. contradiction.
  - exists t'. split; [exact E|]. split; [exact M'|]. intros a b. rewrite K. unfold cut, edges. cbn [tparents]. unfold upd. cbn [In].
    destruct (Nat.eqb_spec b n) as [->|Nb]; [rewrite Ip|]; intuition congruence.
Qed.
Lemma cut_reaches E n R S0 : acyclic E -> (forall a, In a R -> exists q, E q n /\ reaches E a q) -> (forall x y, E x y -> In y S0) ->
  forall a b, reaches (cut E n R) a b <-> reaches E a b.
Proof.
  intros Ac HR Fin. assert (Av : forall a b, reaches E a b -> ~ (b = n \/ reaches E n b) -> reaches (cut E n R) a b).
  { induction 1 as [x y H|x y z H1 IH1 H2 IH2]; intros N.
    - apply t_step. split; [exact H|]. intros [-> _]. apply N. now left.
    - eapply t_trans; [apply IH1|now apply IH2]. intros [->|K]; apply N; right; [exact H2|eapply t_trans; eauto]. }
  assert (D : forall k S1 p, List.length S1 < k -> (forall y, reaches E p y -> In y S1) -> E p n -> reaches (cut E n R) p n).
  { induction k as [|k IH]; intros S1 p L HS H; [lia|]. destruct (in_dec Nat.eq_dec p R) as [Hp|Hp].
    - destruct (HR p Hp) as (q & Hq & Hpq). eapply t_trans.
      + apply Av; [exact Hpq|]. intros [->|K]; [apply (Ac n); now apply t_step|]. apply (Ac n). eapply t_trans; [exact K|now apply t_step].
      + apply (IH (remove Nat.eq_dec q S1)); [|..].
        * assert (X := remove_short q S1 (HS q Hpq)). lia.
        * intros y Hy. apply in_in_remove; [intros ->; now apply (Ac q)|]. apply HS. eapply t_trans; eauto.
        * exact Hq.
    - apply t_step. split; [exact H|]. intros [_ X]. contradiction. }
  intros a b. split; [apply reaches_mono; intros x y [H _]; exact H|].
  induction 1 as [x y H|x y z _ IH1 _ IH2]; [|eapply t_trans; eauto].
  destruct (Nat.eq_dec y n) as [->|Ny].
  - apply (D (S (List.length S0)) S0); [lia| |exact H]. intros y Hy. apply reaches_last in Hy as (c & Hc & _). eapply Fin; eauto.
  - apply t_step. split; [exact H|]. tauto.
Qed.

Lemma simplify_node_ok fuel t n N : mirror t -> acyclic (edges t) -> (forall a b, edges t a b -> a < N /\ b < N) -> N < fuel ->
  exists t', simplify_node fuel t n = Ok t' /\ mirror t' /\ (forall a b, edges t' a b -> edges t a b) /\ (forall a b, reaches (edges t') a b <-> reaches (edges t) a b) /\
    forall a q, edges t' a n -> edges t q n -> ~ reaches (edges t) a q.
Proof.
  intros M Ac Bd Lf. unfold simplify_node.
  assert (GP : forall x, exists l, get_parents fuel t x = Ok l /\ forall y, In y l <-> reaches (edges t) y x).
  { intros x. apply (get_parents_ok t Ac fuel (seq 0 N)); [|now rewrite seq_length]. intros y Hy. apply in_seq. apply reaches_first in Hy as (c & Hc & _). apply Bd in Hc. lia. }
  destruct (rall_all (get_parents fuel t) (fun q l => forall y, In y l <-> reaches (edges t) y q) (tparents t n)) as (ls & -> & F); [intros q _; apply GP|].
  cbn [rbind].
  assert (Cc : forall y, In y (List.concat ls) <-> exists q, edges t q n /\ reaches (edges t) y q).
  { intros y. unfold edges at 1. induction F as [|q l qs ls0 H F IH]; cbn [List.concat].
    - split; [intros []|intros (q & [] & _)].
    - rewrite in_app_iff, IH, H. split.
      + intros [K|(q' & K1 & K2)]; [exists q|exists q']; cbn [In]; auto.
      + intros (q' & [->|K1] & K2); eauto. }
  set (R := inter (to_set (tparents t n)) (List.concat ls)).
  assert (RI : forall a, In a R <-> edges t a n /\ exists q, edges t q n /\ reaches (edges t) a q).
  { intros a. unfold R. rewrite inter_in, to_set_in, Cc. reflexivity. }
  destruct (remove_items n R t M) as (t' & E & M' & K).
  - unfold R, inter. apply NoDup_filter, to_set_nodup.
  - intros x Hx. apply RI in Hx. apply Hx.
  - exists t'. split; [exact E|]. split; [exact M'|]. split; [|split].
    + intros a b H. apply K in H. apply H.
    + intros a b. rewrite <- (cut_reaches (edges t) n R (seq 0 N) Ac).
      * split; apply reaches_mono; intros x y; apply K.
      * intros x Hx. apply RI in Hx. apply Hx.
      * intros x y H. apply Bd in H. apply in_seq. lia.
    + intros a q H1 H2 H3. apply K in H1 as [H1 H4]. apply H4. split; [reflexivity|]. apply RI. eauto.
Qed.
Lemma simplify_ok fuel t N nodes : mirror t -> acyclic (edges t) -> (forall a b, edges t a b -> a < N /\ b < N) -> N < fuel ->
  exists t', simplify_tree fuel t nodes = Ok t' /\ mirror t' /\ (forall a b, edges t' a b -> edges t a b) /\ (forall a b, reaches (edges t') a b <-> reaches (edges t) a b) /\
    forall n a q, In n nodes -> edges t' a n -> edges t' q n -> ~ reaches (edges t) a q.
Proof.
  unfold simplify_tree. revert t. induction nodes as [|n nodes IH]; intros t M Ac Bd L; cbn [rfold].
  - exists t. split; [reflexivity|]. split; [exact M|]. split; [auto|]. split; [reflexivity|]. intros n a q [].
  - destruct (simplify_node_ok fuel t n N M Ac Bd L) as (t1 & -> & M1 & Sub1 & Re1 & Red1). cbn [rbind].
    destruct (IH t1 M1) as (t2 & -> & M2 & Sub2 & Re2 & Red2).
    + intros x H. apply (Ac x). now apply Re1.
    + intros a b H. apply Bd. auto.
    + exact L.
    + exists t2. split; [reflexivity|]. split; [exact M2|]. split; [auto|]. split; [intros a b; now rewrite Re2|].
      intros m a q [<-|Hm] H1 H2 H3.
      * apply (Red1 a q); auto.
      * apply (Red2 m a q Hm H1 H2). now apply Re1.
Qed.
