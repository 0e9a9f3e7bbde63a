(** Proofs about Layout.v. *)
From Coq Require Import QArith Lqa.
From Verif Require Export Layout.
From Coq Require Import Lia Permutation Sorted ZifyBool ZifyNat.
Local Open Scope list_scope.
Local Open Scope nat_scope.

Lemma nmem_in x l : nmem x l = true <-> In x l.
Proof. unfold nmem. rewrite existsb_exists. split; [intros (y & H & E); apply Nat.eqb_eq in E; now subst|intros H; exists x; split; [auto|apply Nat.eqb_refl]]. Qed.
(** [x] is on level [n] *)
Definition lev (L : list (list nat)) (x n : nat) : Prop := exists l, nth_error L n = Some l /\ In x l.
Lemma lev_cons l L x n : lev (l :: L) x n <-> (n = 0 /\ In x l) \/ exists m, n = S m /\ lev L x m.
Proof.
  unfold lev. split.
  - intros (l' & E & H). destruct n as [|n]; cbn in E; [injection E as <-; auto|right; exists n; split; [auto|now exists l']].
  - intros [[-> H]|(m & -> & l' & E & H)]; [now exists l|now exists l'].
Qed.
Lemma lev_nil x n : ~ lev [] x n. Proof. intros (l & E & _). now destruct n. Qed.
Lemma lev_concat L x : In x (List.concat L) <-> exists n, lev L x n.
Proof.
  induction L as [|l L IH]; cbn [List.concat]; [split; [intros []|intros (n & H); now apply lev_nil in H]|]. rewrite in_app_iff, IH. split.
  - intros [H|(n & H)]; [exists 0; apply lev_cons; auto|exists (S n); apply lev_cons; eauto].
  - intros (n & H). apply lev_cons in H as [[_ H]|(m & -> & H)]; eauto.
Qed.
Lemma lev_unique L : NoDup (List.concat L) -> forall x m n, lev L x m -> lev L x n -> m = n.
Proof.
  induction L as [|l L IH]; intros N x m n Hm Hn; [now apply lev_nil in Hm|]. cbn [List.concat] in N.
  assert (D : forall y, In y l -> ~ In y (List.concat L)) by (intros y Hy Hc; clear - N Hy Hc; induction l as [|z l IHl]; [destruct Hy|]; inversion N as [|? ? H1 H2]; subst; destruct Hy as [->|Hy]; [apply H1, in_or_app; auto|auto]).
  assert (N' : NoDup (List.concat L)) by (clear - N; induction l as [|z l IHl]; [exact N|inversion N; auto]).
  apply lev_cons in Hm as [[-> Hm]|(m' & -> & Hm)], Hn as [[-> Hn]|(n' & -> & Hn)].
  - reflexivity.
  - elim (D x Hm). apply lev_concat. eauto.
  - elim (D x Hn). apply lev_concat. eauto.
  - f_equal. apply (IH N' x); auto.
Qed.
Lemma lev_bound L x n : lev L x n -> n < List.length L.
Proof. intros (l & E & _). apply nth_error_Some. congruence. Qed.
Lemma lev_app A B x n : lev (A ++ B) x n <-> lev A x n \/ (exists m, n = List.length A + m /\ lev B x m).
Proof.
  revert n. induction A as [|l A IH]; intros n; cbn [app List.length].
  - split; [intros H; right; now exists n|intros [H|(m & -> & H)]; [now apply lev_nil in H|auto]].
  - rewrite !lev_cons. split.
    + intros [H|(m & -> & H)]; [auto|]. apply IH in H as [H|(k & -> & H)]; [left; right; eauto|right; exists k; split; [lia|auto]].
    + intros [[H|(m & -> & H)]|(k & -> & H)]; [auto|right; exists m; split; [auto|]; apply IH; auto|].
      right. exists (List.length A + k). split; [lia|]. apply IH. right. eauto.
Qed.

Section Proofs.
  Context (edges : list (nat * nat)) (key : nat -> Z * Z) (gid : nat -> option Z).
  Notation edges_in := (edges_in edges).
  Notation edges_out := (edges_out edges).
  Lemma edges_in_in a b : In a (edges_in b) <-> In (a, b) edges.
  Proof.
    unfold Layout.edges_in. rewrite in_map_iff. split.
    - intros ([a' b'] & <- & H). apply filter_In in H as [H E]. cbn [fst snd] in *. apply Nat.eqb_eq in E. now subst.
    - intros H. exists (a, b). split; [auto|]. apply filter_In. split; [auto|]. cbn. apply Nat.eqb_refl.
  Qed.
  Lemma edges_out_in a b : In b (edges_out a) <-> In (a, b) edges.
  Proof.
    unfold Layout.edges_out. rewrite in_map_iff. split.
    - intros ([a' b'] & <- & H). apply filter_In in H as [H E]. cbn [fst snd] in *. apply Nat.eqb_eq in E. now subst.
    - intros H. exists (a, b). split; [auto|]. apply filter_In. split; [auto|]. cbn. apply Nat.eqb_refl.
  Qed.

  (** *** Sorting *)
  Definition klt (a b : nat) : Prop := (fst (key a) < fst (key b) \/ (fst (key a) = fst (key b) /\ snd (key a) < snd (key b)))%Z.
  Definition kle (a b : nat) : Prop := (fst (key a) < fst (key b) \/ (fst (key a) = fst (key b) /\ snd (key a) <= snd (key b)))%Z.
  Lemma key_leb_spec a b : key_leb key a b = true <-> kle a b. Proof. unfold key_leb, kle. lia. Qed.
  Lemma insert_node_perm x l : Permutation (insert_node key x l) (x :: l).
  Proof. induction l as [|y r IH]; cbn [insert_node]; [auto|]. destruct (key_leb key x y); [auto|]. rewrite IH. constructor. Qed.
  Lemma sort_nodes_perm l : Permutation (sort_nodes key l) l.
  Proof. induction l as [|x l IH]; cbn [sort_nodes fold_right]; [auto|]. fold (sort_nodes key l). rewrite insert_node_perm. now constructor. Qed.
  Lemma sort_nodes_sorted l : StronglySorted kle (sort_nodes key l).
  Proof.
    induction l as [|x l IH]; cbn [sort_nodes fold_right]; [constructor|]. fold (sort_nodes key l). revert IH. generalize (sort_nodes key l) as r. clear l.
    induction r as [|y r IH]; intros Sr; cbn [insert_node]; [repeat constructor|]. destruct (key_leb key x y) eqn:E.
    - apply key_leb_spec in E. constructor; [auto|]. inversion Sr as [|? ? S1 F]; subst. constructor; [auto|].
      eapply Forall_impl; [|exact F]. unfold kle in *. intros; lia.
    - inversion Sr as [|? ? S1 F]; subst. constructor; [auto|]. eapply Permutation_Forall; [apply Permutation_sym, insert_node_perm|]. constructor; [|auto].
      destruct (key_leb_spec x y) as [_ X]. unfold kle in *. destruct (Z.lt_trichotomy (fst (key x)) (fst (key y))) as [|[|]]; [exfalso; rewrite X in E by lia; discriminate|..]; [|lia].
      destruct (Z_le_gt_dec (snd (key x)) (snd (key y))); [exfalso; rewrite X in E by lia; discriminate|lia].
  Qed.

  (** *** Placing *)
  Lemma next_level_bound ins L : forall k, next_level ins k L <= k + List.length L.
  Proof. induction L as [|l L IH]; intros k; cbn [next_level List.length]; [lia|]. specialize (IH (S k)). destruct (existsb _ l); lia. Qed.
  Lemma next_level_above ins L : forall k p m, In p ins -> lev L p m -> k + m < next_level ins k L.
  Proof.
    induction L as [|l L IH]; intros k p m Hp H; [now apply lev_nil in H|]. cbn [next_level]. apply lev_cons in H as [[-> H]|(m' & -> & H)].
    - assert (E : existsb (fun n => nmem n ins) l = true) by (apply existsb_exists; exists p; split; [auto|now apply nmem_in]). rewrite E. lia.
    - specialize (IH (S k) p m' Hp H). lia.
  Qed.
  Lemma next_level_attained ins L : forall k, next_level ins k L = 0 \/ exists p m, In p ins /\ lev L p m /\ next_level ins k L = S (k + m).
  Proof.
    induction L as [|l L IH]; intros k; cbn [next_level]; [auto|]. destruct (existsb _ l) eqn:E.
    - apply existsb_exists in E as (p & H1 & H2). apply nmem_in in H2. destruct (IH (S k)) as [->|(q & m & Hq & Hl & E)].
      + right. exists p, 0. split; [auto|]. split; [apply lev_cons; auto|lia].
      + right. exists q, (S m). split; [auto|]. split; [apply lev_cons; eauto|lia].
    - destruct (IH (S k)) as [->|(q & m & Hq & Hl & ->)]; [auto|]. right. exists q, (S m). split; [auto|]. split; [apply lev_cons; eauto|lia].
  Qed.
  Lemma add_at_lev x : forall L n y m, n < List.length L -> (lev (add_at n x L) y m <-> lev L y m \/ (y = x /\ m = n)).
  Proof.
    induction L as [|l L IH]; intros n y m H; [cbn in H; lia|]. destruct n as [|n]; cbn [add_at]; rewrite !lev_cons.
    - rewrite in_app_iff. cbn [In]. split; [intros [[-> [A|[A|[]]]]|B]; [auto|right; auto|auto]|intros [[[-> A]|B]|[-> ->]]; auto 6].
    - cbn in H. split.
      + intros [A|(k & -> & A)]; [auto|]. apply IH in A as [A|[-> ->]]; [|auto|lia]. left. right. eauto.
      + intros [[A|(k & -> & A)]|[-> ->]]; [auto| |]; right; eexists; (split; [reflexivity|]); apply IH; auto; lia.
  Qed.
  Lemma add_at_concat x : forall L n, n < List.length L -> Permutation (List.concat (add_at n x L)) (x :: List.concat L).
  Proof.
    induction L as [|l L IH]; intros n H; [cbn in H; lia|]. destruct n as [|n]; cbn [add_at List.concat].
    - rewrite <- app_assoc. symmetry. apply Permutation_middle.
    - rewrite IH by (cbn in H; lia). symmetry. apply Permutation_middle.
  Qed.
  Lemma add_at_length x : forall L n, List.length (add_at n x L) = List.length L.
  Proof. induction L as [|l L IH]; intros [|n]; cbn [add_at List.length]; auto. Qed.
  Lemma lev_extend L y m : lev (L ++ [[]]) y m <-> lev L y m.
  Proof. rewrite lev_app. split; [intros [H|(k & _ & H)]; [auto|]|auto]. apply lev_cons in H as [[_ []]|(j & _ & H)]. now apply lev_nil in H. Qed.
  Lemma place_spec L x : exists n, n = next_level (edges_in x) 0 L /\
    (forall y m, lev (place_node edges L x) y m <-> lev L y m \/ (y = x /\ m = n)) /\
    Permutation (List.concat (place_node edges L x)) (x :: List.concat L).
  Proof.
    exists (next_level (edges_in x) 0 L). split; [reflexivity|]. unfold place_node. set (n := next_level (edges_in x) 0 L).
    assert (B := next_level_bound (edges_in x) L 0). fold n in B. destruct (Nat.leb_spec (List.length L) n) as [H|H].
    - assert (Hn : n < List.length (L ++ [[]])) by (rewrite app_length; cbn; lia). split.
      + intros y m. rewrite add_at_lev by auto. now rewrite lev_extend.
      + rewrite add_at_concat by auto. constructor. rewrite concat_app. cbn. now rewrite !app_nil_r.
    - split; [intros y m; now apply add_at_lev|now apply add_at_concat].
  Qed.
  Definition layered (L : list (list nat)) : Prop := forall a b m n, In (a, b) edges -> lev L a m -> lev L b n -> m < n.
  (** every node is one level below its lowest parent among the nodes of [L], or on top *)
  Definition highest (L : list (list nat)) : Prop := forall b n, lev L b n -> n = 0 \/ exists a m, In (a, b) edges /\ lev L a m /\ n = S m.
  Lemma place_all : forall xs L, StronglySorted kle xs -> NoDup (List.concat L ++ xs) ->
    (forall a b, In (a, b) edges -> In b (List.concat L ++ xs) -> In a (List.concat L ++ xs) -> klt a b) ->
    (forall y x, In y (List.concat L) -> In x xs -> kle y x) -> layered L -> highest L ->
    layered (fold_left (place_node edges) xs L) /\ highest (fold_left (place_node edges) xs L) /\
    Permutation (List.concat (fold_left (place_node edges) xs L)) (List.concat L ++ xs).
  Proof.
    induction xs as [|x xs IH]; intros L Sx N K Lx Ly Hy; cbn [fold_left]; [now rewrite app_nil_r|].
    destruct (place_spec L x) as (n & En & Lv & P). inversion Sx as [|x1 l1 S1 F]; subst x1 l1.
    assert (P' : Permutation (List.concat (place_node edges L x) ++ xs) (List.concat L ++ x :: xs)) by (rewrite P; cbn [app]; apply Permutation_middle).
    assert (Nx : ~ In x (List.concat L)) by (intros H; apply NoDup_remove_2 in N; apply N, in_or_app; auto).
    destruct (IH (place_node edges L x)) as (A & B & C).
    - auto.
    - eapply Permutation_NoDup; [apply Permutation_sym, P'|auto].
    - intros a b He Hb Ha. apply K; auto; eapply Permutation_in; eauto.
    - intros y z Hz Hz'. assert (Q : In y (x :: List.concat L)) by (eapply Permutation_in; eauto). destruct Q as [<-|Q].
      + rewrite Forall_forall in F. auto.
      + apply Lx; [auto|now right].
    - intros a b m k He Ha Hb. apply Lv in Ha as [Ha|[-> ->]], Hb as [Hb|[-> ->]].
      + eauto.
      + apply edges_in_in in He. assert (X := next_level_above _ L 0 a m He Ha). lia.
      + exfalso. assert (X : In b (List.concat L)) by (apply lev_concat; eauto). assert (Y := Lx b x X (or_introl eq_refl)).
        assert (Z : klt x b) by (apply K; [auto|apply in_or_app; auto|apply in_or_app; right; now left]). unfold klt, kle in *. lia.
      + exfalso. assert (Z : klt x x) by (apply K; [auto|apply in_or_app; right; now left|apply in_or_app; right; now left]). unfold klt in *. lia.
    - intros b k Hb. apply Lv in Hb as [Hb|[-> ->]].
      + destruct (Hy b k Hb) as [->|(a & m & He & Ha & ->)]; [auto|]. right. exists a, m. split; [auto|]. split; [apply Lv; auto|auto].
      + destruct (next_level_attained (edges_in x) L 0) as [E|(p & m & Hp & Hl & E)]; [left; congruence|]. right. exists p, m. split; [now apply edges_in_in|].
        split; [apply Lv; auto|lia].
    - split; [auto|]. split; [auto|]. rewrite C. exact P'.
  Qed.

  (** *** Pushing down *)
  Lemma push_level_spec : forall l below k b, push_level edges l below = (k, b) ->
    Permutation (k ++ b) (l ++ below) /\ (forall x, In x k -> In x l) /\ (forall x, In x below -> In x b) /\
    (forall x, In x b -> In x below \/ (In x l /\ forall d, In (x, d) edges -> ~ In d below)).
  Proof.
    induction l as [|x l IH]; intros below k b E; cbn [push_level] in E; [injection E as <- <-; cbn; auto 6|].
    destruct (existsb _ _) eqn:X.
    - destruct (push_level edges l below) as [k' b'] eqn:E'. injection E as <- <-. destruct (IH below k' b' E') as (P & A & B & C). split; [|split; [|split]].
      + cbn [app]. now constructor.
      + intros y [<-|Hy]; [now left|right; auto].
      + auto.
      + intros y Hy. destruct (C y Hy) as [|[]]; auto. right. split; [now right|auto].
    - destruct (IH (below ++ [x]) k b E) as (P & A & B & C). split; [|split; [|split]].
      + rewrite P. cbn [app]. rewrite app_assoc. symmetry. apply Permutation_cons_append.
      + intros y Hy. right. auto.
      + intros y Hy. apply B, in_or_app. auto.
      + intros y Hy. destruct (C y Hy) as [H|[H1 H2]].
        * apply in_app_or in H as [H|[<-|[]]]; [auto|]. right. split; [now left|]. intros d Hd Hin.
          assert (Y : existsb (fun d => nmem d below) (edges_out x) = true) by (apply existsb_exists; exists d; split; [now apply edges_out_in|now apply nmem_in]). congruence.
        * right. split; [now right|]. intros d Hd Hin. apply (H2 d Hd), in_or_app. auto.
  Qed.
  Lemma push_levels_spec : forall L, layered L ->
    layered (push_levels edges L) /\ Permutation (List.concat (push_levels edges L)) (List.concat L) /\
    (forall x m, lev (push_levels edges L) x m -> exists k, lev L x k /\ k <= m <= S k) /\ (L = [] \/ push_levels edges L <> []).
  Proof.
    induction L as [|l L IH]; intros Hl; cbn [push_levels].
    { split; [auto|]. split; [auto|]. split; [intros x m H; now apply lev_nil in H|auto]. }
    assert (HL : layered L).
    { intros a b m n He Ha Hb. assert (S m < S n); [|lia]. apply (Hl a b); auto; apply lev_cons; eauto. }
    destruct (IH HL) as (A & P & D & E). destruct (push_levels edges L) as [|below r] eqn:Ep.
    - destruct E as [->|E]; [|congruence]. split; [auto|]. split; [auto|]. split; [intros x m H; exists m; split; [auto|lia]|right; discriminate].
    - destruct (push_level edges l below) as [k b] eqn:Eq. destruct (push_level_spec l below k b Eq) as (P1 & B1 & B2 & B3).
      assert (Deep : forall d, In d (List.concat (below :: r)) -> In d (List.concat L)) by (intros d Hd; eapply Permutation_in; eauto).
      assert (Lv : forall y m, lev (k :: b :: r) y m <-> (m = 0 /\ In y k) \/ (m = 1 /\ In y b) \/ exists j, m = S (S j) /\ lev r y j).
      { intros y m. rewrite lev_cons. split.
        - intros [H|(j & -> & H)]; [auto|]. right. apply lev_cons in H as [[-> H]|(i & -> & H)]; eauto.
        - intros [H|[[-> H]|(j & -> & H)]]; [auto|right; exists 0; split; [auto|apply lev_cons; auto]|right; exists (S j); split; [auto|apply lev_cons; eauto]]. }
      assert (Top : forall a c n, In (a, c) edges -> In c l -> lev (k :: b :: r) a n -> False).
      { intros a c n He Hc Ha. assert (X : exists i, lev (l :: L) a i).
        { apply lev_concat. cbn [List.concat]. apply Lv in Ha as [[_ H]|[[_ H]|(j & _ & H)]].
          - apply in_or_app. left. auto.
          - apply in_or_app. destruct (B3 a H) as [Q|[Q _]]; [right; apply Deep; cbn [List.concat]; apply in_or_app; auto|auto].
          - apply in_or_app. right. apply Deep. cbn [List.concat]. apply in_or_app. right. apply lev_concat. eauto. }
        destruct X as (i & X). assert (Y : i < 0); [|lia]. apply (Hl a c i 0); auto. apply lev_cons. auto. }
      split; [|split; [|split; [|right; discriminate]]].
      + intros a c m n He Ha Hc.
        assert (Hc' := Hc). assert (Ha' := Ha). apply Lv in Hc as [[-> Hc]|[[-> Hc]|(j & -> & Hc)]].
        * exfalso. eapply Top; [exact He| |exact Ha']. auto.
        * destruct (B3 c Hc) as [Q|[Q _]]; [|exfalso; eapply Top; eauto]. apply Lv in Ha as [[-> Ha]|[[-> Ha]|(i & -> & Ha)]]; [lia| |].
          -- exfalso. destruct (B3 a Ha) as [R|[R R']]; [|now apply (R' c)]. assert (X : 0 < 0); [|lia]. apply (A a c); auto; apply lev_cons; auto.
          -- exfalso. assert (X : S i < 0); [|lia]. apply (A a c); auto; apply lev_cons; eauto.
        * apply Lv in Ha as [[-> Ha]|[[-> Ha]|(i & -> & Ha)]]; [lia|lia|]. assert (X : S i < S j); [|lia]. apply (A a c); auto; apply lev_cons; eauto.
      + cbn [List.concat]. rewrite app_assoc, P1. rewrite <- app_assoc. apply Permutation_app_head. exact P.
      + intros x m H. apply Lv in H as [[-> H]|[[-> H]|(j & -> & H)]].
        * exists 0. split; [apply lev_cons; auto|lia].
        * destruct (B3 x H) as [Q|[Q _]].
          -- destruct (D x 0) as (i & Hi & Le); [apply lev_cons; auto|]. exists (S i). split; [apply lev_cons; eauto|lia].
          -- exists 0. split; [apply lev_cons; auto|lia].
        * destruct (D x (S j)) as (i & Hi & Le); [apply lev_cons; eauto|]. exists (S i). split; [apply lev_cons; eauto|lia].
  Qed.
  Lemma layout_nodes_spec pd nodes : NoDup nodes -> (forall a b, In (a, b) edges -> In a nodes -> In b nodes -> klt a b) ->
    layered (layout_nodes edges key pd nodes) /\ Permutation (List.concat (layout_nodes edges key pd nodes)) nodes.
  Proof.
    intros N K. unfold layout_nodes. assert (Ps := sort_nodes_perm nodes).
    destruct (place_all (sort_nodes key nodes) []) as (A & _ & B).
    - apply sort_nodes_sorted.
    - cbn. eapply Permutation_NoDup; [apply Permutation_sym, Ps|auto].
    - cbn. intros a b He Hb Ha. apply K; auto; eapply Permutation_in; eauto.
    - intros y x [].
    - intros a b m n _ H. now apply lev_nil in H.
    - intros b n H. now apply lev_nil in H.
    - cbn [List.concat app] in B. destruct pd; [|split; [auto|now rewrite B]].
      destruct (push_levels_spec _ A) as (C & D & _). split; [auto|]. now rewrite D, B.
  Qed.
  Lemma layout_highest nodes : NoDup nodes -> (forall a b, In (a, b) edges -> In a nodes -> In b nodes -> klt a b) ->
    highest (layout_nodes edges key false nodes).
  Proof.
    intros N K. unfold layout_nodes. assert (Ps := sort_nodes_perm nodes).
    destruct (place_all (sort_nodes key nodes) []) as (_ & A & _).
    - apply sort_nodes_sorted.
    - cbn. eapply Permutation_NoDup; [apply Permutation_sym, Ps|auto].
    - cbn. intros a b He Hb Ha. apply K; auto; eapply Permutation_in; eauto.
    - intros y x [].
    - intros a b m n _ H. now apply lev_nil in H.
    - intros b n H. now apply lev_nil in H.
    - exact A.
  Qed.

  (** *** Groups *)
  Lemma insert_group_in g h l : In h (insert_group g l) <-> h = g \/ In h l.
  Proof.
    induction l as [|k l IH]; cbn [insert_group]; [cbn; intuition|]. destruct (Z.ltb_spec g k); [cbn; intuition|]. destruct (Z.eqb_spec g k) as [->|]; [cbn; intuition|]. cbn [In]. rewrite IH. intuition.
  Qed.
  Lemma insert_group_sorted g l : StronglySorted Z.lt l -> StronglySorted Z.lt (insert_group g l).
  Proof.
    induction l as [|k l IH]; intros Sl; cbn [insert_group]; [repeat constructor|]. inversion Sl as [|? ? S1 F]; subst. destruct (Z.ltb_spec g k).
    - constructor; [auto|]. constructor; [auto|]. eapply Forall_impl; [|exact F]. intros; lia.
    - destruct (Z.eqb_spec g k) as [->|]; [auto|]. constructor; [auto|]. rewrite Forall_forall in *. intros x Hx. apply insert_group_in in Hx as [->|Hx]; [lia|auto].
  Qed.
  Lemma all_groups_spec nodes gs : all_groups gid nodes = Ok gs ->
    StronglySorted Z.lt gs /\ (forall g, In g gs <-> exists x, In x nodes /\ gid x = Some g) /\ forall x, In x nodes -> gid x <> None.
  Proof.
    revert gs. induction nodes as [|x nodes IH]; intros gs E; cbn [all_groups fold_right] in E.
    - injection E as <-. split; [constructor|]. split; [intros g; split; [intros []|intros (x & [] & _)]|intros x []].
    - fold (all_groups gid nodes) in E. destruct (all_groups gid nodes) as [l|] eqn:El; [|discriminate E]. cbn [rbind] in E. destruct (gid x) as [g|] eqn:Eg; [|discriminate E]. injection E as <-.
      destruct (IH l eq_refl) as (A & B & C). split; [now apply insert_group_sorted|]. split.
      + intros h. rewrite insert_group_in, B. split; [intros [->|(y & Hy & Ey)]; [exists x; split; [now left|auto]|exists y; split; [now right|auto]]|].
        intros (y & [<-|Hy] & Ey); [left; congruence|right; eauto].
      + intros y [<-|Hy]; [congruence|auto].
  Qed.
  Lemma all_groups_total nodes : (forall x, In x nodes -> gid x <> None) -> exists gs, all_groups gid nodes = Ok gs.
  Proof.
    induction nodes as [|x nodes IH]; intros H; cbn [all_groups fold_right]; [eauto|]. fold (all_groups gid nodes). destruct IH as (l & ->); [intros y Hy; apply H; now right|]. cbn [rbind].
    destruct (gid x) as [g|] eqn:E; [eauto|]. elim (H x); [now left|auto].
  Qed.
  (** an edge leads to a later group, or to a node of the same group with a greater key *)
  Definition descends (a b : nat) : Prop :=
    match gid a, gid b with
    | Some g, Some h => (g < h)%Z \/ (g = h /\ klt a b)
    | _, _ => klt a b
    end.
  Lemma in_group_spec g x : in_group gid g x = true <-> gid x = Some g.
  Proof. unfold in_group. destruct (gid x) as [h|]; [|split; discriminate]. rewrite Z.eqb_eq. split; congruence. Qed.
  Lemma groups_spec pd nodes : NoDup nodes -> forall gs, StronglySorted Z.lt gs -> (forall a b, In (a, b) edges -> In a nodes -> In b nodes -> gid a <> None -> gid b <> None -> descends a b) ->
    layered (flat_map (fun g => layout_nodes edges key pd (filter (in_group gid g) nodes)) gs) /\
    (forall x, In x (List.concat (flat_map (fun g => layout_nodes edges key pd (filter (in_group gid g) nodes)) gs)) <-> In x nodes /\ exists g, In g gs /\ gid x = Some g) /\
    NoDup (List.concat (flat_map (fun g => layout_nodes edges key pd (filter (in_group gid g) nodes)) gs)).
  Proof.
    intros N gs. induction gs as [|g gs IH]; intros Sg K; cbn [flat_map].
    { split; [intros a b m n _ H; now apply lev_nil in H|]. split; [|constructor]. intros x. split; [intros []|intros (_ & g & [] & _)]. }
    inversion Sg as [|? ? S1 F]; subst. destruct (IH S1 K) as (A & B & C). set (rest := flat_map _ gs) in *.
    destruct (layout_nodes_spec pd (filter (in_group gid g) nodes)) as (A1 & P1).
    - now apply NoDup_filter.
    - intros a b He Ha Hb. apply filter_In in Ha as [Ha Ga], Hb as [Hb Gb]. apply in_group_spec in Ga, Gb. assert (X := K a b He Ha Hb). unfold descends in X. rewrite Ga, Gb in X. destruct X as [X|[_ X]]; [congruence|congruence|lia|auto].
    - set (top := layout_nodes edges key pd (filter (in_group gid g) nodes)) in *.
      assert (Tin : forall x, In x (List.concat top) <-> In x nodes /\ gid x = Some g).
      { intros x. rewrite <- in_group_spec, <- filter_In. split; intros H; [exact (Permutation_in _ P1 H)|exact (Permutation_in _ (Permutation_sym P1) H)]. }
      assert (Tin2 : forall x m, lev top x m -> In x nodes /\ gid x = Some g) by (intros x m H; apply Tin, lev_concat; eauto).
      assert (Rin2 : forall x m, lev rest x m -> In x nodes /\ exists h, (g < h)%Z /\ gid x = Some h).
      { intros x m H. assert (X : In x (List.concat rest)) by (apply lev_concat; eauto). apply B in X as (X1 & h & Hh & Eh). split; [auto|]. exists h. split; [rewrite Forall_forall in F; auto|auto]. }
      split; [|split].
      + intros a b m n He Ha Hb. apply lev_app in Ha as [Ha|(i & -> & Ha)], Hb as [Hb|(j & -> & Hb)].
        * eauto.
        * apply lev_bound in Ha. lia.
        * exfalso. destruct (Rin2 a i Ha) as (Na & h & Hgh & Ga), (Tin2 b n Hb) as (Nb & Gb). assert (X := K a b He Na Nb). unfold descends in X. rewrite Ga, Gb in X. destruct X as [X|[X _]]; [congruence|congruence|lia|lia].
        * assert (i < j) by eauto. lia.
      + intros x. rewrite concat_app, in_app_iff, Tin, B. split.
        * intros [[H1 H2]|(H1 & h & H2 & H3)]; (split; [auto|]); [exists g; split; [now left|auto]|exists h; split; [now right|auto]].
        * intros (H1 & h & [<-|H2] & H3); [auto|right; eauto].
      + rewrite concat_app. assert (Nt : NoDup (List.concat top)) by (eapply Permutation_NoDup; [apply Permutation_sym, P1|now apply NoDup_filter]).
        clear - Nt C Tin B F. rewrite Forall_forall in F.
        assert (D : forall x, In x (List.concat top) -> ~ In x (List.concat rest)) by (intros x Hx Hr; apply Tin in Hx as [_ E]; apply B in Hr as (_ & h & Hh & Eh); assert (h = g) by congruence; subst; specialize (F g Hh); lia).
        clear Tin. induction (List.concat top) as [|y t IHt]; [exact C|]. inversion Nt as [|? ? H1 H2]; subst. cbn [app]. constructor; [|apply IHt; auto; intros z Hz; apply D; now right].
        rewrite in_app_iff. intros [H|H]; [auto|]. apply (D y); [now left|auto].
  Qed.
  (** the nodes all have a group, or none has *)
  Definition grouped (nodes : list nat) : Prop := (forall x, In x nodes -> gid x <> None) \/ (forall x, In x nodes -> gid x = None).
  Lemma make_levels_spec pd nodes L : NoDup nodes -> grouped nodes -> (forall a b, In (a, b) edges -> In a nodes /\ In b nodes /\ descends a b) ->
    make_levels edges key gid pd nodes = Ok L -> layered L /\ NoDup (List.concat L) /\ forall x, In x (List.concat L) <-> In x nodes.
  Proof.
    intros N Gr K E. unfold make_levels in E. destruct nodes as [|x0 t] eqn:En; [discriminate E|]. rewrite <- En in *.
    assert (H0 : In x0 nodes) by (rewrite En; now left). clear t En. destruct (gid x0) as [g0|] eqn:G0.
    - destruct (all_groups gid nodes) as [gs|] eqn:Eg; [|discriminate E]. cbn [rbind] in E. injection E as <-. destruct (all_groups_spec _ _ Eg) as (A & B & C).
      destruct (groups_spec pd nodes N gs A) as (X & Y & Z); [intros a b He _ _ _ _; apply (K a b He)|]. split; [auto|]. split; [auto|].
      intros x. rewrite Y. split; [intros [H _]; auto|]. intros H. split; [auto|]. destruct (gid x) as [g|] eqn:Gx; [|now elim (C x H)]. exists g. split; [apply B; eauto|auto].
    - injection E as <-. destruct Gr as [Gr|Gr]; [now elim (Gr x0 H0)|]. destruct (layout_nodes_spec pd nodes N) as (X & Y).
      + intros a b He Ha Hb. destruct (K a b He) as (_ & _ & D). unfold descends in D. now rewrite (Gr a Ha) in D.
      + split; [auto|]. split; [eapply Permutation_NoDup; [apply Permutation_sym, Y|auto]|]. intros x. split; intros H; [exact (Permutation_in _ Y H)|exact (Permutation_in _ (Permutation_sym Y) H)].
  Qed.

  (** *** Clustering only permutes the levels *)
  Lemma insert_by_perm k x l : Permutation (insert_by k x l) (x :: l).
  Proof. induction l as [|y r IH]; cbn [insert_by]; [auto|]. destruct (k x <=? k y)%Z; [auto|]. rewrite IH. constructor. Qed.
  Lemma sort_on_perm k l : Permutation (sort_on k l) l.
  Proof. induction l as [|x l IH]; cbn [sort_on fold_right]; [auto|]. fold (sort_on k l). rewrite insert_by_perm. now constructor. Qed.
  Lemma cluster_perm L : Forall2 (@Permutation nat) (cluster_levels edges L) L.
  Proof.
    induction L as [|l L IH]; cbn [cluster_levels]; [constructor|]. destruct (cluster_levels edges L) as [|n r].
    - inversion IH; subst. repeat constructor. apply Permutation_refl.
    - constructor; [apply sort_on_perm|auto].
  Qed.
  Lemma perm_levels A B : Forall2 (@Permutation nat) A B -> Permutation (List.concat A) (List.concat B) /\ forall x n, lev A x n -> lev B x n.
  Proof.
    induction 1 as [|a b A B P F [IH1 IH2]]; [split; [auto|auto]|]. cbn [List.concat]. split; [now apply Permutation_app|].
    intros x n H. apply lev_cons in H as [[-> H]|(m & -> & H)]; apply lev_cons; [left; split; [auto|]; eapply Permutation_in; eauto|right; eauto].
  Qed.
End Proofs.

(** *** Positions *)
Local Notation q n := (inject_Z (Z.of_nat n)).
Definition xq (scale : Q) (w i : nat) : Q := ((1 / q w) * (q i + (1 # 2)) * scale)%Q.
Definition yq (scale : Q) (h i : nat) : Q := ((1 - (1 / q h) * (q i + (1 # 2))) * scale)%Q.
Lemma spread_level_in scale h li x p : forall l w i, In (x, p) (spread_level scale h w li i l) ->
  exists j, nth_error l j = Some x /\ p = (xq scale w (i + j), yq scale h li).
Proof.
  induction l as [|y l IH]; intros w i H; cbn [spread_level] in H; [destruct H|]. destruct H as [H|H].
  - injection H as -> <-. exists 0. rewrite Nat.add_0_r. split; reflexivity.
  - apply IH in H as (j & E & ->). exists (S j). split; [exact E|]. now rewrite Nat.add_succ_comm.
Qed.
Lemma spread_in scale h x p : forall L i, In (x, p) (spread scale h i L) ->
  exists k l j, nth_error L k = Some l /\ nth_error l j = Some x /\ p = (xq scale (List.length l) j, yq scale h (i + k)).
Proof.
  induction L as [|l L IH]; intros i H; cbn [spread] in H; [destruct H|]. apply in_app_or in H as [H|H].
  - apply spread_level_in in H as (j & E & ->). exists 0, l, j. rewrite Nat.add_0_r. auto.
  - apply IH in H as (k & l' & j & E1 & E2 & ->). exists (S k), l', j. rewrite <- Nat.add_succ_comm. auto.
Qed.
Lemma spread_level_fst scale h li : forall l w i, map fst (spread_level scale h w li i l) = l.
Proof. induction l as [|y l IH]; intros w i; cbn [spread_level map fst]; [auto|]. now rewrite IH. Qed.
Lemma spread_fst scale h : forall L i, map fst (spread scale h i L) = List.concat L.
Proof. induction L as [|l L IH]; intros i; cbn [spread List.concat]; [auto|]. now rewrite map_app, spread_level_fst, IH. Qed.
Lemma q_mono a b : a < b -> (q a + 1 <= q b)%Q.
Proof. intros H. change 1%Q with (inject_Z 1). rewrite <- inject_Z_plus, <- Zle_Qle. lia. Qed.
Lemma q_nonneg a : (0 <= q a)%Q. Proof. change 0%Q with (inject_Z 0). rewrite <- Zle_Qle. lia. Qed.
Lemma frac_range w i : i < w -> (0 < (1 / q w) * (q i + (1 # 2)) /\ (1 / q w) * (q i + (1 # 2)) < 1)%Q.
Proof.
  intros H. assert (H1 := q_mono i w H). assert (H2 := q_nonneg i). assert (H0 : (0 < q w)%Q) by lra.
  assert (E : ((1 / q w) * (q i + (1 # 2)) == (q i + (1 # 2)) / q w)%Q) by (field; lra). split.
  - rewrite E. apply Qlt_shift_div_l; [auto|]. lra.
  - rewrite E. apply Qlt_shift_div_r; [auto|]. lra.
Qed.
Lemma frac_mono w i j : i < j -> j < w -> ((1 / q w) * (q i + (1 # 2)) < (1 / q w) * (q j + (1 # 2)))%Q.
Proof.
  intros H Hw. assert (H1 := q_mono i j H). assert (H2 := q_mono j w Hw). assert (H3 := q_nonneg i).
  apply Qmult_lt_l; [|lra]. unfold Qdiv. rewrite Qmult_1_l. apply Qinv_lt_0_compat. lra.
Qed.
Lemma scale_range (f s : Q) : (0 < s -> 0 < f -> f < 1 -> 0 < f * s /\ f * s < s)%Q.
Proof. intros Hs H0 H1. split; [now apply Qmult_lt_0_compat|]. setoid_replace s with (1 * s)%Q at 2 by ring. apply Qmult_lt_r; auto. Qed.
Lemma xq_range scale w i : (0 < scale)%Q -> i < w -> (0 < xq scale w i /\ xq scale w i < scale)%Q.
Proof. intros Hs H. destruct (frac_range w i H). unfold xq. now apply scale_range. Qed.
Lemma yq_range scale w i : (0 < scale)%Q -> i < w -> (0 < yq scale w i /\ yq scale w i < scale)%Q.
Proof. intros Hs H. destruct (frac_range w i H). unfold yq. apply scale_range; [auto|lra|lra]. Qed.
Lemma xq_mono scale w i j : (0 < scale)%Q -> i < j -> j < w -> (xq scale w i < xq scale w j)%Q.
Proof. intros Hs H Hw. unfold xq. apply Qmult_lt_r; [auto|]. now apply frac_mono. Qed.
Lemma yq_mono scale w i j : (0 < scale)%Q -> i < j -> j < w -> (yq scale w j < yq scale w i)%Q.
Proof. intros Hs H Hw. unfold yq. apply Qmult_lt_r; [auto|]. assert (X := frac_mono w i j H Hw). lra. Qed.
Lemma q_inj (a b : Q) : (a < b)%Q -> ~ (a == b)%Q. Proof. intros H E. rewrite E in H. now apply Qlt_irrefl in H. Qed.

Section Layout.
  Context (edges : list (nat * nat)) (key : nat -> Z * Z) (gid : nat -> option Z).
  Theorem layout_levels scale pd cl nodes pos : NoDup nodes -> grouped gid nodes ->
    (forall a b, In (a, b) edges -> In a nodes /\ In b nodes /\ descends key gid a b) ->
    directed_layout edges key gid scale pd cl nodes = Ok pos ->
    exists L, NoDup (List.concat L) /\ (forall x, In x (List.concat L) <-> In x nodes) /\ layered edges L /\ pos = spread scale (List.length L) 0 L.
  Proof.
    intros N G K E. unfold directed_layout in E. destruct (make_levels edges key gid pd nodes) as [L|] eqn:EL; [|discriminate E]. cbn [rbind] in E.
    destruct (make_levels_spec edges key gid pd nodes L N G K EL) as (A & B & C). injection E as <-. destruct cl; [|exists L; auto].
    destruct (perm_levels _ _ (cluster_perm edges L)) as (P & Q). exists (cluster_levels edges L). split; [eapply Permutation_NoDup; [apply Permutation_sym, P|auto]|].
    split; [|split; [|reflexivity]].
    - intros x. rewrite <- C. split; intros H; [exact (Permutation_in _ P H)|exact (Permutation_in _ (Permutation_sym P) H)].
    - intros a b m n He Ha Hb. apply (A a b); auto.
  Qed.
  Lemma make_levels_total pd nodes : nodes <> [] -> grouped gid nodes -> exists L, make_levels edges key gid pd nodes = Ok L.
  Proof.
    intros H G. unfold make_levels. destruct nodes as [|x t] eqn:E; [congruence|]. rewrite <- E in *. assert (H0 : In x nodes) by (rewrite E; now left). clear E.
    destruct (gid x) eqn:Gx; [|eauto]. destruct G as [G|G]; [|rewrite G in Gx by auto; discriminate]. destruct (all_groups_total gid nodes G) as (gs & ->). cbn [rbind]. eauto.
  Qed.
End Layout.
