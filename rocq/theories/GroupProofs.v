(** Proofs about create_similar_groups. *)
From Coq Require Import Lia Permutation Sorted.
From Coq Require Import ZifyBool ZifyNat ZifyN.
From Verif Require Import Compress SpecCompress DepsProofs DepsTable ActionProofs TreeProofs.
Local Open Scope string_scope.
Local Open Scope list_scope.
Local Open Scope nat_scope.
Local Opaque NB WC_FULLWC layout oxm_fields registry_init.

(** ** Total orders *)
Definition cmp_ok {A} (c : A -> A -> comparison) : Prop :=
  (forall x y, c x y = Eq <-> x = y) /\ (forall x y, c y x = CompOpp (c x y)) /\ (forall x y z, c x y = Lt -> c y z = Lt -> c x z = Lt).
Definition cle {A} (c : A -> A -> comparison) (x y : A) : bool := match c x y with Gt => false | _ => true end.
Definition lexc {A B} (c1 : A -> A -> comparison) (c2 : B -> B -> comparison) (x y : A * B) : comparison :=
  match c1 (fst x) (fst y) with Eq => c2 (snd x) (snd y) | r => r end.
Fixpoint listc {A} (c : A -> A -> comparison) (a b : list A) : comparison :=
  match a, b with [], [] => Eq | [], _ => Lt | _, [] => Gt | x :: a, y :: b => match c x y with Eq => listc c a b | r => r end end.
Definition typec (a b : atype) : comparison :=
  match a, b with TName n, TName m => String.compare n m | TSet n, TSet m => String.compare n m | TName _, TSet _ => Lt | TSet _, TName _ => Gt end.
Lemma zcmp_ok : cmp_ok Z.compare.
Proof. split; [exact Z.compare_eq_iff|]. split; [intros x y; apply Z.compare_antisym|]. intros x y z. rewrite !Z.compare_lt_iff. lia. Qed.
Lemma scmp_ok : cmp_ok String.compare.
Proof. split; [exact str_cmp_eq|]. split; [exact str_cmp_antisym|exact str_cmp_lt_trans]. Qed.
Lemma typec_ok : cmp_ok typec.
Proof.
  destruct scmp_ok as (E & A & T). split; [|split].
  - intros [n|n] [m|m]; cbn [typec]; rewrite ?E; split; congruence.
  - intros [n|n] [m|m]; cbn [typec]; auto.
  - intros [n|n] [m|m] [k|k]; cbn [typec]; try discriminate; eauto.
Qed.
Lemma lexc_ok {A B} (c1 : A -> A -> comparison) (c2 : B -> B -> comparison) : cmp_ok c1 -> cmp_ok c2 -> cmp_ok (lexc c1 c2).
Proof.
  intros (E1 & A1 & T1) (E2 & A2 & T2). unfold lexc. split; [|split].
  - intros [a b] [a' b']; cbn [fst snd]. destruct (c1 a a') eqn:X.
    + apply E1 in X. subst. rewrite E2. split; congruence.
    + split; [discriminate|]. intros [= -> ->]. assert (Y := proj2 (E1 a' a') eq_refl). congruence.
    + split; [discriminate|]. intros [= -> ->]. assert (Y := proj2 (E1 a' a') eq_refl). congruence.
  - intros [a b] [a' b']; cbn [fst snd]. rewrite (A1 a a'). destruct (c1 a a'); cbn [CompOpp]; auto.
  - intros [a b] [a' b'] [a2 b2]; cbn [fst snd]. destruct (c1 a a') eqn:X; try discriminate; destruct (c1 a' a2) eqn:Y; try discriminate; intros H1 H2.
    + apply E1 in X. subst a'. rewrite Y. eauto.
    + apply E1 in X. subst a'. now rewrite Y.
    + apply E1 in Y. subst a'. now rewrite X.
    + now rewrite (T1 _ _ _ X Y).
Qed.
Lemma listc_ok {A} (c : A -> A -> comparison) : cmp_ok c -> cmp_ok (listc c).
Proof.
  intros (E & An & T). split; [|split].
  - induction x as [|a x IH]; intros [|b y]; cbn [listc]; try (split; congruence). destruct (c a b) eqn:X.
    + apply E in X. subst. rewrite IH. split; congruence.
    + split; [discriminate|]. intros [= -> ->]. assert (Y := proj2 (E b b) eq_refl). congruence.
    + split; [discriminate|]. intros [= -> ->]. assert (Y := proj2 (E b b) eq_refl). congruence.
  - induction x as [|a x IH]; intros [|b y]; cbn [listc]; auto. rewrite (An a b). destruct (c a b); cbn [CompOpp]; auto.
  - induction x as [|a x IH]; intros [|b y] [|d z]; cbn [listc]; try discriminate; auto.
    destruct (c a b) eqn:X; try discriminate; destruct (c b d) eqn:Y; try discriminate; intros H1 H2.
    + apply E in X. subst b. rewrite Y. eauto.
    + apply E in X. subst b. now rewrite Y.
    + apply E in Y. subst b. now rewrite X.
    + now rewrite (T _ _ _ X Y).
Qed.
Lemma cle_total {A} (c : A -> A -> comparison) : cmp_ok c -> forall x y, cle c x y = false -> cle c y x = true.
Proof. intros (_ & An & _) x y. unfold cle. rewrite (An x y). destruct (c x y); cbn; auto; discriminate. Qed.
Lemma cle_trans {A} (c : A -> A -> comparison) : cmp_ok c -> forall x y z, cle c x y = true -> cle c y z = true -> cle c x z = true.
Proof.
  intros (E & An & T) x y z. unfold cle. destruct (c x y) eqn:X; try discriminate; destruct (c y z) eqn:Y; try discriminate; intros _ _.
  - apply E in X. subst. now rewrite Y.
  - apply E in X. subst. now rewrite Y.
  - apply E in Y. subst. now rewrite X.
  - now rewrite (T _ _ _ X Y).
Qed.
Lemma cle_antisym {A} (c : A -> A -> comparison) : cmp_ok c -> forall x y, cle c x y = true -> cle c y x = true -> x = y.
Proof. intros (E & An & T) x y. unfold cle. rewrite (An x y). destruct (c x y) eqn:X; cbn; try discriminate. intros _ _. now apply E. Qed.

(** the order of the keys *)
Definition ktuple (k : simkey) := (ktable k, (kprio k, (kmask k, (kgoto k, kacts k)))).
Definition keyc (a b : simkey) : comparison :=
  lexc Z.compare (lexc Z.compare (lexc Z.compare (lexc Z.compare (listc typec)))) (ktuple a) (ktuple b).
Lemma keyc_ok : cmp_ok keyc.
Proof.
  assert (H : cmp_ok (lexc Z.compare (lexc Z.compare (lexc Z.compare (lexc Z.compare (listc typec)))))).
  { repeat apply lexc_ok; try apply zcmp_ok. apply listc_ok, typec_ok. }
  destruct H as (E & An & T). unfold keyc. split; [|split]; [|intros; apply An|intros x y z; apply T].
  intros x y. rewrite E. split; [|congruence]. destruct x, y. unfold ktuple. cbn. congruence.
Qed.
Lemma types_total a : forall b r, types_cmp a b = Ok r -> listc typec a b = r.
Proof.
  induction a as [|[n|n] a IH]; intros [|[m|m] b] r; cbn [types_cmp listc typec]; intros H; try congruence; try (destruct b; congruence).
  - destruct (String.compare n m); [auto|congruence|congruence].
  - destruct (String.compare n m); [auto|congruence|congruence].
Qed.
Lemma key_total a b r : sim_cmp a b = Ok r -> keyc a b = r.
Proof.
  unfold sim_cmp, keyc, ktuple, lexc. cbn [fst snd].
  destruct (ktable a ?= ktable b)%Z; [|congruence..]. destruct (kprio a ?= kprio b)%Z; [|congruence..].
  destruct (kmask a ?= kmask b)%Z; [|congruence..]. destruct (kgoto a ?= kgoto b)%Z; [|congruence..]. apply types_total.
Qed.
Lemma key_le_total a b : is_ok (sim_cmp a b) = true -> sim_le a b = cle keyc a b.
Proof. unfold sim_le, cle. destruct (sim_cmp a b) as [r|] eqn:E; [|discriminate]. intros _. rewrite (key_total _ _ _ E). destruct r; reflexivity. Qed.
Lemma key_eq_total a b : is_ok (sim_cmp a b) = true -> (sim_eq a b = true <-> a = b).
Proof.
  unfold sim_eq. destruct (sim_cmp a b) as [r|] eqn:E; [|discriminate]. intros _. apply key_total in E. rewrite <- (proj1 keyc_ok a b), E.
  destruct r; split; congruence.
Qed.
Lemma sort_by_ext {A} (le le' : A -> A -> bool) l : (forall x y, In x l -> In y l -> le x y = le' x y) -> sort_by le l = sort_by le' l.
Proof.
  induction l as [|x l IH]; intros H; [reflexivity|]. cbn [sort_by fold_right]. fold (sort_by le l). fold (sort_by le' l).
  rewrite IH by (intros; apply H; now right).
  assert (G : forall m, incl m l -> insert_by le x m = insert_by le' x m).
  { induction m as [|y m IHm]; intros I0; [reflexivity|]. cbn [insert_by]. rewrite (H x y) by (try (now left); right; apply I0; now left).
    rewrite IHm by (intros z Hz; apply I0; now right). reflexivity. }
  apply G. intros z Hz. now apply (Permutation_in _ (sort_by_perm le' l)).
Qed.

(** ** groupby *)
Definition kle (x y : simkey * nat) : bool := cle keyc (fst x) (fst y).
Lemma groupby_ok l : StronglySorted (fun x y => kle x y = true) l -> (forall x y, In x l -> In y l -> is_ok (sim_cmp (fst x) (fst y)) = true) ->
  List.concat (map snd (groupby l)) = map snd l /\ (forall k g, In (k, g) (groupby l) -> g <> [] /\ forall x, In x g -> In (k, x) l) /\
  NoDup (map fst (groupby l)) /\ match l, groupby l with [], [] => True | (k, _) :: _, (k', _) :: _ => k = k' | _, _ => False end.
Proof.
  induction 1 as [|[k x] t S0 IH F]; intros C; [cbn; split; [reflexivity|]; split; [intros k g []|]; split; [constructor|exact Logic.I]|].
  assert (IH' := IH (fun x y Hx Hy => C x y (or_intror Hx) (or_intror Hy))). clear IH. destruct IH' as (A & B & N & Hd). cbn [groupby].
  destruct (groupby t) as [|[k' g] r] eqn:E.
  - destruct t as [|[kk xx] t']; [|rewrite E in Hd; destruct Hd]. cbn. split; [reflexivity|]. split; [|split; [repeat constructor; intros []|reflexivity]].
    intros k0 g [[= <- <-]|[]]. split; [discriminate|]. intros y [<-|[]]. now left.
  - destruct t as [|[k1 x1] t']; [discriminate E|]. rewrite E in Hd. subst k1. destruct (sim_eq k k') eqn:Ek.
    + apply key_eq_total in Ek; [|apply (C (k, x) (k', x1)); [now left|right; now left]]. subst k'. split; [|split; [|split]].
      * cbn [map snd List.concat app] in *. now rewrite A.
      * intros k0 g0 [[= <- <-]|H].
        -- split; [discriminate|]. intros y [<-|Hy]; [now left|]. right. apply (B k g (or_introl eq_refl)). exact Hy.
        -- destruct (B k0 g0 (or_intror H)) as [H1 H2]. split; [exact H1|]. intros y Hy. right. auto.
      * exact N.
      * reflexivity.
    + split; [|split; [|split]].
      * cbn [map snd List.concat app] in *. now rewrite A.
      * intros k0 g0 [[= <- <-]|H].
        -- split; [discriminate|]. intros y [<-|[]]. now left.
        -- destruct (B k0 g0 H) as [H1 H2]. split; [exact H1|]. intros y Hy. right. auto.
      * cbn [map fst]. constructor; [|exact N]. intros X.
        assert (Hk : In k (map fst ((k', g) :: r)) -> exists y, In (k, y) ((k', x1) :: t')).
        { intros H. apply in_map_iff in H as ([k2 g2] & E2 & H). cbn [fst] in E2. subst k2. destruct (B k g2 H) as [H1 H2]. destruct g2 as [|y g2]; [congruence|]. exists y. apply H2. now left. }
        apply Hk in X as (y & Hy). assert (L1 : kle (k, x) (k', x1) = true) by (rewrite Forall_forall in F; apply F; now left).
        assert (L2 : cle keyc k' k = true).
        { destruct Hy as [[= -> _]|Hy].
          - unfold cle. now rewrite (proj2 (proj1 keyc_ok k k) eq_refl).
          - inversion S0 as [|? ? S1 F1]; subst. rewrite Forall_forall in F1. exact (F1 _ Hy). }
        assert (X : k = k') by (exact (cle_antisym keyc keyc_ok _ _ L1 L2)).
        apply (key_eq_total k k') in X; [congruence|]. apply (C (k, x) (k', x1)); [now left|right; now left].
      * reflexivity.
Qed.

(** ** Groups as a partition *)
Definition part_ok (U : list nat) (d : gdict) (m : rdict) : Prop :=
  NoDup U /\ Permutation (List.concat (map snd d)) U /\ (forall g l, In (g, l) d -> exists r, l = g :: r) /\ (forall g l x, In (g, l) d -> In x l -> m x = Some g).
Lemma part_find U d m x : part_ok U d m -> In x U -> exists g l, In (g, l) d /\ In x l /\ m x = Some g.
Proof.
  intros (N & P & H & M) Hx. apply (Permutation_in _ (Permutation_sym P)) in Hx. apply in_concat in Hx as (l & Hl & Hx). apply in_map_iff in Hl as ([g l'] & <- & Hl).
  exists g, l'. eauto.
Qed.
Lemma part_in U d m g l x : part_ok U d m -> In (g, l) d -> In x l -> In x U.
Proof. intros (N & P & H & M) Hl Hx. apply (Permutation_in _ P). apply in_concat. exists l. split; [apply in_map_iff; exists (g, l); auto|exact Hx]. Qed.
Lemma part_head U d m g l : part_ok U d m -> In (g, l) d -> In g l.
Proof. intros (N & P & H & M) Hl. destruct (H g l Hl) as (r & ->). now left. Qed.
Lemma part_get U d m g l : part_ok U d m -> In (g, l) d -> gget d g = Ok l.
Proof.
  intros (N & P & H & M) Hl. assert (N' : NoDup (List.concat (map snd d))) by (eapply Permutation_NoDup; [apply Permutation_sym; exact P|exact N]). clear N P.
  induction d as [|[g' l'] d IH]; [destruct Hl|]. cbn [gget]. destruct (Nat.eqb_spec g' g) as [->|Ne].
  - destruct Hl as [[= ->]|Hl]; [reflexivity|]. exfalso. destruct (H g l (or_intror Hl)) as (r & ->). destruct (H g l' (or_introl eq_refl)) as (r' & ->).
    cbn [map snd List.concat app] in N'. inversion N' as [|? ? X _]; subst. apply X. apply in_or_app. right. apply in_concat. exists (g :: r). split; [|now left].
    apply in_map_iff. exists (g, g :: r). auto.
  - destruct Hl as [[= -> ->]|Hl]; [congruence|]. apply IH; [| |exact Hl|].
    + intros. apply H. now right.
    + intros. eapply M; [right; eauto|auto].
    + cbn [map snd List.concat] in N'. clear - N'. induction l' as [|x l' IHl]; [exact N'|]. cbn in N'. inversion N'; auto.
Qed.
Lemma gget_in d g l : gget d g = Ok l -> In (g, l) d.
Proof. induction d as [|[g' l'] d IH]; cbn [gget]; [discriminate|]. destruct (Nat.eqb_spec g' g) as [->|N]; [intros [= ->]; now left|right; auto]. Qed.
Lemma nodup_app_l {A} (a b : list A) : NoDup (a ++ b) -> NoDup a.
Proof. induction a as [|x a IH]; [constructor|]. cbn. inversion 1 as [|? ? H1 H2]; subst. constructor; [|auto]. intros X. apply H1, in_or_app. now left. Qed.
Lemma nodup_app_r {A} (a b : list A) : NoDup (a ++ b) -> NoDup b.
Proof. induction a as [|x a IH]; [auto|]. cbn. inversion 1; auto. Qed.
Lemma nodup_app_disj {A} (a b : list A) x : NoDup (a ++ b) -> In x a -> In x b -> False.
Proof. induction a as [|y a IH]; [intros _ []|]. cbn. inversion 1 as [|? ? H1 H2]; subst. intros [->|Ha] Hb; [apply H1, in_or_app; now right|auto]. Qed.
Lemma nodup_app_intro {A} (a b : list A) : NoDup a -> NoDup b -> (forall x, In x a -> In x b -> False) -> NoDup (a ++ b).
Proof.
  induction 1 as [|x a Hx N IH]; intros Nb D; [exact Nb|]. cbn. constructor.
  - intros X. apply in_app_or in X as [X|X]; [contradiction|]. apply (D x); [now left|exact X].
  - apply IH; [exact Nb|]. intros y Hy. apply D. now right.
Qed.
(** from groups to keys *)
Definition mk_group (l : list nat) : nat * list nat := (hd O l, l).
Lemma keys_in (d : gdict) g : In g (map fst d) -> (forall g l, In (g, l) d -> exists r, l = g :: r) -> In g (List.concat (map snd d)).
Proof.
  intros H Hd. apply in_map_iff in H as ([g' l] & E & H). cbn [fst] in E. subst g'. apply in_concat. exists l. split; [apply in_map_iff; exists (g, l); auto|].
  destruct (Hd g l H) as (r & ->). now left.
Qed.
Lemma part_keys_nodup U d m : part_ok U d m -> NoDup (map fst d).
Proof.
  intros (N & P & H & M). assert (N' : NoDup (List.concat (map snd d))) by (eapply Permutation_NoDup; [apply Permutation_sym; exact P|exact N]). clear N P M.
  induction d as [|[g l] d IH]; [constructor|]. cbn [map fst]. cbn [map snd List.concat] in N'. constructor.
  - intros X. apply keys_in in X; [|intros; apply H; now right]. destruct (H g l (or_introl eq_refl)) as (r & ->). apply (nodup_app_disj _ _ g N'); [now left|exact X].
  - apply IH; [intros; apply H; now right|]. eapply nodup_app_r; eauto.
Qed.
Lemma gset_fresh (d : gdict) k v : ~ In k (map fst d) -> gset d k v = d ++ [(k, v)].
Proof. induction d as [|[k' v'] d IH]; [reflexivity|]. cbn [map fst gset app]. intros H. destruct (Nat.eqb_spec k' k) as [->|N]; [elim H; now left|]. rewrite IH; [reflexivity|]. intros X. apply H. now right. Qed.
Lemma rset_all_get ks v : forall m x, rset_all m ks v x = if nin x ks then Some v else m x.
Proof.
  unfold rset_all. induction ks as [|k ks IH]; intros m x; [reflexivity|]. cbn [fold_left]. rewrite IH. unfold nin. cbn [existsb]. fold (nin x ks). unfold rset.
  destruct (nin x ks); [now rewrite orb_true_r|]. rewrite orb_false_r. reflexivity.
Qed.
(** adding groups *)
Lemma put_groups_ok : forall ls d, (forall l, In l ls -> l <> []) -> NoDup (List.concat ls) -> (forall x, In x (List.concat ls) -> ~ In x (map fst d)) ->
  rfold put_group ls d = Ok (d ++ map mk_group ls).
Proof.
  induction ls as [|l ls IH]; intros d Hne N Fr; cbn [rfold map]; [now rewrite app_nil_r|].
  destruct l as [|x l]; [elim (Hne [] (or_introl eq_refl) eq_refl)|]. cbn [put_group rbind]. cbn [List.concat] in N, Fr.
  assert (Hx : ~ In x (map fst d)) by (apply Fr; now left). rewrite (gset_fresh _ _ _ Hx).
  rewrite IH; [now rewrite <- app_assoc|intros; apply Hne; now right|eapply nodup_app_r; exact N|].
  intros y Hy. rewrite map_app, in_app_iff. intros [X|[X|[]]]; [apply (Fr y); [apply in_or_app; now right|exact X]|].
  cbn [fst] in X. subst y. apply (nodup_app_disj _ _ x N); [now left|exact Hy].
Qed.
Lemma replace_groups_ok : forall ls s, (forall l, In l ls -> l <> []) -> NoDup (List.concat ls) -> (forall x, In x (List.concat ls) -> ~ In x (map fst (fst s))) ->
  exists m', rfold (fun s l => match l with [] => Err IndexError | x :: _ => Ok (gset (fst s) x l, rset_all (snd s) l x) end) ls s = Ok (fst s ++ map mk_group ls, m') /\
    (forall x, ~ In x (List.concat ls) -> m' x = snd s x) /\ (forall l x, In l ls -> In x l -> m' x = Some (hd O l)).
Proof.
  induction ls as [|l ls IH]; intros [d m] Hne N Fr; cbn [rfold map fst snd] in *.
  { exists m. rewrite app_nil_r. split; [reflexivity|]. split; [auto|]. intros l x []. }
  destruct l as [|x l]; [elim (Hne [] (or_introl eq_refl) eq_refl)|]. cbn [rbind]. cbn [List.concat] in N, Fr.
  assert (Hx : ~ In x (map fst d)) by (apply Fr; now left). rewrite (gset_fresh _ _ _ Hx).
  destruct (IH (d ++ [(x, x :: l)], rset_all m (x :: l) x)) as (m' & E & M1 & M2).
  - intros; apply Hne; now right.
  - eapply nodup_app_r; exact N.
  - cbn [fst]. intros y Hy. rewrite map_app, in_app_iff. intros [X|[X|[]]]; [apply (Fr y); [apply in_or_app; now right|exact X]|].
    cbn [fst] in X. subst y. apply (nodup_app_disj _ _ x N); [now left|exact Hy].
  - exists m'. cbn [fst snd] in *. split; [etransitivity; [exact E|]; now rewrite <- app_assoc|]. split.
    + intros y Hy. cbn [List.concat] in Hy. rewrite in_app_iff in Hy. rewrite M1 by tauto. rewrite rset_all_get.
      destruct (nin y (x :: l)) eqn:Ey; [apply nin_in in Ey; tauto|reflexivity].
    + intros l0 y [<-|Hl] Hy; [|now apply (M2 l0)]. rewrite M1; [rewrite rset_all_get|].
      * apply nin_in in Hy. rewrite Hy. reflexivity.
      * intros X. apply (nodup_app_disj _ _ y N); auto.
Qed.
Lemma groups_perm ls : List.concat (map snd (map mk_group ls)) = List.concat ls.
Proof. rewrite map_map. unfold mk_group. cbn. now rewrite map_id. Qed.
Lemma mk_group_in ls g l : In (g, l) (map mk_group ls) -> In l ls /\ g = hd O l.
Proof. intros H. apply in_map_iff in H as (l' & [= <- <-] & H). auto. Qed.
Lemma gdel_perm (d : gdict) g l : NoDup (map fst d) -> In (g, l) d -> Permutation d ((g, l) :: gdel d g).
Proof.
  induction d as [|[g' l'] d IH]; [intros _ []|]. cbn [map fst gdel filter]. inversion 1 as [|? ? N1 N2]; subst. intros H0. destruct (Nat.eqb_spec g' g) as [->|Ne]; cbn [negb].
  - destruct H0 as [[= ->]|H0]; [|elim N1; apply in_map_iff; exists (g, l); auto]. constructor.
    assert (E : filter (fun x : nat * list nat => negb (fst x =? g)) d = d).
    { clear - N1. induction d as [|[k v] d IH]; [reflexivity|]. cbn [filter fst]. destruct (Nat.eqb_spec k g) as [->|_]; [elim N1; now left|]. cbn [negb]. f_equal. apply IH. intros X. apply N1. now right. }
    now rewrite E.
  - destruct H0 as [[= -> ->]|H0]; [congruence|]. rewrite (IH N2 H0) at 1. apply perm_swap.
Qed.
Lemma part_bound U d m : part_ok U d m -> List.length d <= List.length U.
Proof.
  intros (N & P & H & M). rewrite <- (Permutation_length P). clear P M N. induction d as [|[g l] d IH]; [cbn; lia|].
  cbn [map snd List.concat List.length]. rewrite app_length. destruct (H g l (or_introl eq_refl)) as (r & ->). assert (X : List.length d <= List.length (List.concat (map snd d))) by (apply IH; intros; apply H; now right).
  cbn [List.length]. lia.
Qed.

(** ** Splitting *)
Section Split.
  Context (t : tree) (m : rdict).
  (** the groups of the parents and of the children are the same *)
  Definition sig_eq (x y : nat) : Prop :=
    (forall v, (exists p, In p (tparents t x) /\ m p = Some v) <-> (exists p, In p (tparents t y) /\ m p = Some v)) /\
    (forall v, (exists p, In p (tchildren t x) /\ m p = Some v) <-> (exists p, In p (tchildren t y) /\ m p = Some v)).
  Definition has_sig (x : nat) (pc : list nat * list nat) : Prop :=
    (forall v, In v (fst pc) <-> exists p, In p (tparents t x) /\ m p = Some v) /\ (forall v, In v (snd pc) <-> exists p, In p (tchildren t x) /\ m p = Some v).
  Lemma rgets_ok ks : (forall k, In k ks -> exists v, m k = Some v) -> exists l, rgets m ks = Ok l /\ forall v, In v l <-> exists p, In p ks /\ m p = Some v.
  Proof.
    intros H. unfold rgets. destruct (rall_all (rget m) (fun k v => m k = Some v) ks) as (l & E & F).
    - intros k Hk. destruct (H k Hk) as (v & Ev). exists v. unfold rget. rewrite Ev. auto.
    - exists l. split; [exact E|]. clear E H. intros v. induction F as [|k v' ks l H F IH]; cbn [In].
      + split; [intros []|intros (p & [] & _)].
      + rewrite IH. split.
        * intros [->|(p & H1 & H2)]; eauto.
        * intros (p & [->|H1] & H2); [left; congruence|right; eauto].
  Qed.
  Definition key_same (a b : list nat * list nat) : bool := seteq (fst a) (fst b) && seteq (snd a) (snd b).
  Lemma sig_key x a b : has_sig x a -> has_sig x b -> key_same a b = true.
  Proof. intros [A1 A2] [B1 B2]. unfold key_same. apply andb_true_iff. split; apply seteq_in; intros v; [now rewrite A1, B1|now rewrite A2, B2]. Qed.
  Lemma sig_trans x a b : has_sig x a -> key_same a b = true -> has_sig x b.
  Proof. intros [A1 A2] H. apply andb_true_iff in H as [H1 H2]. assert (X1 := proj1 (seteq_in _ _) H1). assert (X2 := proj1 (seteq_in _ _) H2). split; intros v; [rewrite <- X1; apply A1|rewrite <- X2; apply A2]. Qed.
  Lemma sig_move x y a : has_sig x a -> sig_eq x y -> has_sig y a.
  Proof. intros [A1 A2] [B1 B2]. split; intros v; [rewrite A1; apply B1|rewrite A2; apply B2]. Qed.
  Lemma sig_both x y a : has_sig x a -> has_sig y a -> sig_eq x y.
  Proof. intros [A1 A2] [B1 B2]. split; intros v; [now rewrite <- A1, <- B1|now rewrite <- A2, <- B2]. Qed.
  Definition parts_ok (ps : parts) (done : list nat) : Prop :=
    Permutation (List.concat (map snd ps)) done /\ (forall k l, In (k, l) ps -> l <> [] /\ forall x, In x l -> has_sig x k) /\
    ForallOrdPairs (fun a b => key_same (fst a) (fst b) = false) ps.
  Lemma part_add_keys ps p c x : forall k l, In (k, l) (part_add ps p c x) -> (exists l', In (k, l') ps) \/ k = (p, c).
  Proof.
    induction ps as [|[[p' c'] l'] ps IH]; cbn [part_add]; intros k l H.
    - destruct H as [[= <- <-]|[]]. now right.
    - destruct (seteq p' p && seteq c' c) eqn:E.
      + destruct H as [[= <- <-]|H]; left; [exists l'; now left|exists l; now right].
      + destruct H as [[= <- <-]|H]; [left; exists l'; now left|]. destruct (IH k l H) as [(l2 & H2)|H2]; [left; exists l2; now right|now right].
  Qed.
  Lemma part_add_ok ps done x p c : parts_ok ps done -> has_sig x (p, c) -> parts_ok (part_add ps p c x) (done ++ [x]).
  Proof.
    intros (P & H & D) Hs. revert done P. induction ps as [|[[p' c'] l] ps IH]; intros done P; cbn [part_add].
    - cbn in P. split; [|split].
      + cbn. apply Permutation_nil in P. subst done. reflexivity.
      + intros k l [[= <- <-]|[]]. split; [discriminate|]. intros y [<-|[]]. exact Hs.
      + repeat constructor.
    - destruct (seteq p' p && seteq c' c) eqn:E.
      + split; [|split].
        * cbn [map snd List.concat] in *. rewrite <- app_assoc. rewrite <- P. rewrite <- !app_assoc. apply Permutation_app_head. apply Permutation_app_comm.
        * intros k l0 [[= <- <-]|H0]; [|apply H; now right]. split; [destruct l; discriminate|]. intros y Hy. apply in_app_or in Hy as [Hy|[<-|[]]].
          -- apply (H (p', c') l (or_introl eq_refl)). exact Hy.
          -- eapply sig_trans; [exact Hs|]. unfold key_same. cbn [fst snd]. apply andb_true_iff in E as [E1 E2]. apply andb_true_iff.
             assert (X1 := proj1 (seteq_in _ _) E1). assert (X2 := proj1 (seteq_in _ _) E2). split; apply seteq_in; intros v; [now rewrite X1|now rewrite X2].
        * inversion D as [|? ? D1 D2]; subst. constructor; [|exact D2]. eapply Forall_impl; [|exact D1]. cbn. auto.
      + cbn [map snd List.concat] in P. inversion D as [|? ? D1 D2]; subst.
        destruct (IH (fun k l0 H0 => H k l0 (or_intror H0)) D2 (List.concat (map snd ps)) (Permutation_refl _)) as (P1 & H1 & D3). split; [|split].
        * cbn [map snd List.concat]. rewrite P1, app_assoc, P. reflexivity.
        * intros k l0 [[= <- <-]|H0]; [apply H; now left|apply H1; exact H0].
        * constructor; [|exact D3]. apply Forall_forall. intros [k l0] H0. cbn [fst]. apply part_add_keys in H0 as [(l2 & H0)|E0].
          -- rewrite Forall_forall in D1. exact (D1 _ H0).
          -- rewrite E0. exact E.
  Qed.
  Lemma split_rules_ok rules : (forall x y, In x rules -> In y (tparents t x ++ tchildren t x) -> exists v, m y = Some v) ->
    exists ps, split_rules t m rules = Ok ps /\ parts_ok ps rules.
  Proof.
    intros H. unfold split_rules.
    assert (G : forall todo done ps, done ++ todo = rules -> parts_ok ps done ->
      exists ps', rfold (fun d x => do p <- rgets m (tparents t x); do c <- rgets m (tchildren t x); Ok (part_add d p c x)) todo ps = Ok ps' /\ parts_ok ps' rules).
    { induction todo as [|x todo IH]; intros done ps E Inv; cbn [rfold]; [rewrite app_nil_r in E; subst done; eauto|].
      assert (Hx : In x rules) by (rewrite <- E; apply in_elt).
      destruct (rgets_ok (tparents t x)) as (p & -> & Hp); [intros k Hk; apply (H x k Hx), in_or_app; now left|].
      destruct (rgets_ok (tchildren t x)) as (c & -> & Hc); [intros k Hk; apply (H x k Hx), in_or_app; now right|]. cbn [rbind].
      apply (IH (done ++ [x])); [now rewrite <- app_assoc|]. apply part_add_ok; [exact Inv|]. split; [exact Hp|exact Hc]. }
    apply (G rules [] []); [reflexivity|]. split; [reflexivity|]. split; [intros k l []|constructor].
  Qed.
  Lemma parts_same ps rules l x y : parts_ok ps rules -> In l (map snd ps) -> In x l -> In y l -> sig_eq x y.
  Proof. intros (P & H & D) Hl Hx Hy. apply in_map_iff in Hl as ([k l'] & <- & Hl). destruct (H k l' Hl) as [_ K]. eapply sig_both; eauto. Qed.
  Lemma parts_together ps rules x y : parts_ok ps rules -> In x rules -> In y rules -> sig_eq x y -> exists l, In l (map snd ps) /\ In x l /\ In y l.
  Proof.
    intros (P & H & D) Hx Hy E. apply (Permutation_in _ (Permutation_sym P)) in Hx, Hy. apply in_concat in Hx as (l1 & L1 & X1), Hy as (l2 & L2 & Y2).
    exists l1. split; [exact L1|]. split; [exact X1|].
    apply in_map_iff in L1 as ([k1 l1'] & <- & L1), L2 as ([k2 l2'] & <- & L2). cbn [snd] in *.
    assert (S1 := proj2 (H k1 l1' L1) x X1). assert (S2 := proj2 (H k2 l2' L2) y Y2).
    assert (K : key_same k1 k2 = true) by (eapply sig_key; [eapply sig_move; [exact S1|exact E]|exact S2]).
    assert (K' : key_same k2 k1 = true) by (eapply sig_key; [exact S2|eapply sig_move; [exact S1|exact E]]).
    destruct (ForallOrdPairs_In D (k1, l1') (k2, l2') L1 L2) as [X|[X|X]]; [injection X as E1 E2; now rewrite E2| |]; cbn [fst] in X; congruence.
  Qed.
End Split.

(** ** The loop *)
Section Loop.
  Context (t : tree) (U : list nat).
  Context (closed : forall x y, In x U -> In y (tparents t x ++ tchildren t x) -> In y U).
  Lemma part_sig d m : part_ok U d m -> forall g l, In (g, l) d -> exists ps, split_rules t m l = Ok ps /\ parts_ok t m ps l.
  Proof.
    intros Hp g l Hl. apply split_rules_ok. intros x y Hx Hy. assert (Hu : In y U) by (eapply closed; [eapply part_in; eauto|exact Hy]).
    destruct (part_find _ _ _ _ Hp Hu) as (g' & l' & _ & _ & E). eauto.
  Qed.
  Definition stable (d : gdict) (m : rdict) : Prop := forall g l x y, In (g, l) d -> In x l -> In y l -> sig_eq t m x y.
  Lemma find_split_ok d m : part_ok U d m ->
    (find_split t m d = Ok None /\ stable d m) \/
    (exists g l ps, find_split t m d = Ok (Some (g, map snd ps)) /\ In (g, l) d /\ parts_ok t m ps l /\ 1 < List.length ps).
  Proof.
    intros Hp. assert (G : forall d', incl d' d -> (find_split t m d' = Ok None /\ stable d' m) \/
      (exists g l ps, find_split t m d' = Ok (Some (g, map snd ps)) /\ In (g, l) d /\ parts_ok t m ps l /\ 1 < List.length ps)).
    { induction d' as [|[g l] d' IH]; intros I0; cbn [find_split]; [left; split; [reflexivity|]; intros g l x y []|].
      assert (Hl : In (g, l) d) by (apply I0; now left).
      assert (IH' := IH (fun z Hz => I0 z (or_intror Hz))). clear IH.
      destruct (Nat.eqb_spec (List.length l) 1) as [E1|N1].
      - destruct IH' as [[-> St]|K]; [left|right; exact K]. split; [reflexivity|]. intros g0 l0 x y [[= <- <-]|H] Hx Hy; [|eapply St; eauto].
        destruct l as [|z [|? ?]]; try discriminate E1. destruct Hx as [<-|[]], Hy as [<-|[]]. split; reflexivity.
      - destruct (part_sig d m Hp g l Hl) as (ps & -> & Ps). cbn [rbind]. destruct (Nat.ltb_spec 1 (List.length ps)) as [L|L].
        + right. exists g, l, ps. auto.
        + destruct IH' as [[-> St]|K]; [left|right; exact K]. split; [reflexivity|]. intros g0 l0 x y [[= <- <-]|H] Hx Hy; [|eapply St; eauto].
          assert (A : forall z, In z l -> exists l1, In l1 (map snd ps) /\ In z l1).
          { intros z Hz. apply (Permutation_in _ (Permutation_sym (proj1 Ps))) in Hz. apply in_concat in Hz as (l1 & H1 & H2). eauto. }
          destruct (A x Hx) as (l1 & H1 & X1), (A y Hy) as (l2 & H2 & Y2). assert (l1 = l2) as ->.
          { destruct ps as [|a [|b ps]]; [destruct H1| |cbn in L; lia]. destruct H1 as [<-|[]], H2 as [<-|[]]. reflexivity. }
          eapply parts_same; eauto. }
    apply (G d). apply incl_refl.
  Qed.
  Lemma split_step d m g l ps : part_ok U d m -> In (g, l) d -> parts_ok t m ps l ->
    exists d' m', rfold (fun s l => match l with [] => Err IndexError | x :: _ => Ok (gset (fst s) x l, rset_all (snd s) l x) end) (map snd ps) (gdel d g, m) = Ok (d', m') /\
      part_ok U d' m' /\ S (List.length d') = List.length d + List.length ps /\
      forall x y, In x U -> In y U -> (m' x = m' y <-> m x = m y /\ (In x l -> sig_eq t m x y)).
  Proof.
    intros Hp Hl Ps. assert (Hp' := Hp). destruct Hp' as (N & P & H & M).
    assert (ND := part_keys_nodup _ _ _ Hp). assert (Pd := gdel_perm d g l ND Hl).
    assert (NC : NoDup (l ++ List.concat (map snd (gdel d g)))).
    { eapply Permutation_NoDup; [|exact N]. rewrite <- P. change (l ++ List.concat (map snd (gdel d g))) with (List.concat (map snd ((g, l) :: gdel d g))). clear - Pd.
      induction Pd as [|[a b] x y P IH|[a b] [c e] x|x y z P1 IH1 P2 IH2]; cbn [map snd List.concat]; [reflexivity|now apply Permutation_app_head| |etransitivity; eauto].
      rewrite !app_assoc. apply Permutation_app_tail. apply Permutation_app_comm. }
    assert (Hg : forall g' l', In (g', l') (gdel d g) -> In (g', l') d) by (intros g' l' X; unfold gdel in X; apply filter_In in X; apply X).
    destruct (replace_groups_ok (map snd ps) (gdel d g, m)) as (m' & E & M1 & M2).
    - intros l0 H0. apply in_map_iff in H0 as ([k l1] & <- & H0). now apply (proj1 (proj2 Ps)) in H0.
    - eapply Permutation_NoDup; [apply Permutation_sym, (proj1 Ps)|]. eapply nodup_app_l; exact NC.
    - cbn [fst]. intros x Hx X. apply (Permutation_in _ (proj1 Ps)) in Hx. apply keys_in in X; [|intros; apply H; auto]. exact (nodup_app_disj _ _ x NC Hx X).
    - cbn [fst snd] in *. exists (gdel d g ++ map mk_group (map snd ps)), m'. split; [exact E|].
      assert (Out : forall x, In x (List.concat (map snd ps)) <-> In x l) by (intros x; split; apply Permutation_in; [apply (proj1 Ps)|apply Permutation_sym, (proj1 Ps)]).
      split; [|split].
      + split; [exact N|]. split; [|split].
        * rewrite map_app, concat_app, groups_perm. rewrite (proj1 Ps). rewrite Permutation_app_comm. rewrite <- P.
          change (l ++ List.concat (map snd (gdel d g))) with (List.concat (map snd ((g, l) :: gdel d g))). apply Permutation_sym. clear - Pd.
          induction Pd as [|[a b] x y P IH|[a b] [c e] x|x y z P1 IH1 P2 IH2]; cbn [map snd List.concat]; [reflexivity|now apply Permutation_app_head| |etransitivity; eauto].
          rewrite !app_assoc. apply Permutation_app_tail. apply Permutation_app_comm.
        * intros g0 l0 H0. apply in_app_or in H0 as [H0|H0]; [apply H; auto|]. apply mk_group_in in H0 as [H0 ->]. apply in_map_iff in H0 as ([k l1] & <- & H0). cbn [snd].
          destruct (proj1 (proj2 Ps) _ _ H0) as [X _]. destruct l1 as [|x l1]; [congruence|]. exists l1. reflexivity.
        * intros g0 l0 x H0 Hx. apply in_app_or in H0 as [H0|H0].
          -- rewrite M1; [eapply M; eauto|]. rewrite Out. intros X. apply (nodup_app_disj _ _ x NC X). apply in_concat. exists l0. split; [apply in_map_iff; exists (g0, l0); auto|exact Hx].
          -- apply mk_group_in in H0 as [H0 ->]. now apply (M2 l0).
      + rewrite app_length, !map_length. apply Permutation_length in Pd. cbn [List.length] in Pd. lia.
      + assert (InL : forall x, In x U -> (In x l <-> m x = Some g)).
        { intros x Hx. split; [intros X; eapply M; eauto|]. intros X. destruct (part_find _ _ _ _ Hp Hx) as (g1 & l1 & A & B & C). assert (g1 = g) by congruence. subst g1.
          assert (l1 = l) by (apply (part_get _ _ _ _ _ Hp) in A; apply (part_get _ _ _ _ _ Hp) in Hl; congruence). now subst. }
        assert (NotL : forall x, ~ In x l -> m' x = m x) by (intros x Hx; apply M1; now rewrite Out).
        assert (Hd : forall x, In x l -> exists h, m' x = Some h /\ In h l).
        { intros x Hx. apply Out in Hx. apply in_concat in Hx as (l1 & H1 & H2). exists (hd O l1). split; [now apply M2|]. apply Out. apply in_concat. exists l1. split; [exact H1|].
          destruct l1; [destruct H2|now left]. }
        intros x y Hx Hy. destruct (in_dec Nat.eq_dec x l) as [Lx|Lx], (in_dec Nat.eq_dec y l) as [Ly|Ly].
        * split.
          -- intros X. split; [rewrite (proj1 (InL x Hx) Lx), (proj1 (InL y Hy) Ly); reflexivity|]. intros _.
             apply Out in Lx. apply Out in Ly. apply in_concat in Lx as (l1 & L1 & X1), Ly as (l2 & L2 & Y2).
             rewrite (M2 l1 x L1 X1), (M2 l2 y L2 Y2) in X. injection X as X.
             assert (l1 = l2) as ->; [|eapply parts_same; eauto].
             assert (NP : NoDup (List.concat (map snd ps))) by (eapply Permutation_NoDup; [apply Permutation_sym, (proj1 Ps)|]; eapply nodup_app_l; exact NC).
             clear - L1 L2 X1 Y2 X NP. induction (map snd ps) as [|a ls IH]; [destruct L1|]. cbn [List.concat] in NP.
             assert (Hh : forall b z, In z b -> In (hd O b) b) by (intros [|? ?] z; [intros []|now left]).
             destruct L1 as [->|L1], L2 as [->|L2]; [reflexivity| | |apply IH; auto; eapply nodup_app_r; exact NP]; exfalso.
             ++ apply (nodup_app_disj _ _ (hd O l1) NP); [eapply Hh; eauto|]. rewrite X. apply in_concat. exists l2. split; [exact L2|eapply Hh; eauto].
             ++ apply (nodup_app_disj _ _ (hd O l2) NP); [eapply Hh; eauto|]. rewrite <- X. apply in_concat. exists l1. split; [exact L1|eapply Hh; eauto].
          -- intros [_ X]. destruct (parts_together t m ps l x y Ps Lx Ly (X Lx)) as (l1 & L1 & X1 & Y1). now rewrite (M2 l1 x L1 X1), (M2 l1 y L1 Y1).
        * split.
          -- intros X. exfalso. destruct (Hd x Lx) as (h & Eh & Hh). rewrite (NotL y Ly) in X. destruct (part_find _ _ _ _ Hp Hy) as (g1 & l1 & A & B & C).
             assert (g1 = h) by congruence. subst g1. apply Ly. assert (Hu : In h U) by (exact (part_in _ _ _ _ _ _ Hp Hl Hh)). apply InL; [exact Hy|].
             apply (InL h Hu) in Hh. assert (m h = Some h) by (eapply M; [exact A|eapply part_head; eauto]). congruence.
          -- intros [X _]. exfalso. apply Ly. apply InL; [exact Hy|]. rewrite <- X. now apply InL.
        * split.
          -- intros X. exfalso. destruct (Hd y Ly) as (h & Eh & Hh). rewrite (NotL x Lx) in X. destruct (part_find _ _ _ _ Hp Hx) as (g1 & l1 & A & B & C).
             assert (g1 = h) by congruence. subst g1. apply Lx. assert (Hu : In h U) by (exact (part_in _ _ _ _ _ _ Hp Hl Hh)). apply InL; [exact Hx|].
             apply (InL h Hu) in Hh. assert (m h = Some h) by (eapply M; [exact A|eapply part_head; eauto]). congruence.
          -- intros [X _]. exfalso. apply Lx. apply InL; [exact Hx|]. rewrite X. now apply InL.
        * rewrite (NotL x Lx), (NotL y Ly). tauto.
  Qed.
  (** a relation that respects the dependencies *)
  Definition respects (Q : nat -> nat -> Prop) : Prop := forall x y, Q x y ->
    (forall p, In p (tparents t x) -> exists p', In p' (tparents t y) /\ Q p p') /\ (forall p, In p (tparents t y) -> exists p', In p' (tparents t x) /\ Q p' p) /\
    (forall p, In p (tchildren t x) -> exists p', In p' (tchildren t y) /\ Q p p') /\ (forall p, In p (tchildren t y) -> exists p', In p' (tchildren t x) /\ Q p' p).
  Lemma respects_sig Q m x y : respects Q -> In x U -> In y U -> (forall a b, In a U -> In b U -> Q a b -> m a = m b) -> Q x y -> sig_eq t m x y.
  Proof.
    intros R Ux Uy HQ H. assert (Cp : forall a b, In a U -> In b (tparents t a) -> In b U) by (intros a b Ha Hb; eapply closed; [exact Ha|apply in_or_app; now left]).
    assert (Cc : forall a b, In a U -> In b (tchildren t a) -> In b U) by (intros a b Ha Hb; eapply closed; [exact Ha|apply in_or_app; now right]).
    destruct (R x y H) as (A & B & C & D). split; intros v; split; intros (p & H1 & H2).
    - destruct (A p H1) as (p' & K1 & K2). exists p'. split; [exact K1|]. rewrite <- (HQ p p'); eauto.
    - destruct (B p H1) as (p' & K1 & K2). exists p'. split; [exact K1|]. rewrite (HQ p' p); eauto.
    - destruct (C p H1) as (p' & K1 & K2). exists p'. split; [exact K1|]. rewrite <- (HQ p p'); eauto.
    - destruct (D p H1) as (p' & K1 & K2). exists p'. split; [exact K1|]. rewrite (HQ p' p); eauto.
  Qed.
  Lemma split_loop_ok : forall fuel d m, part_ok U d m -> List.length U < List.length d + fuel ->
    exists d' m', split_loop fuel t d m = Ok (d', m') /\ part_ok U d' m' /\ stable d' m' /\ (forall x y, In x U -> In y U -> m' x = m' y -> m x = m y) /\
      forall Q, respects Q -> (forall x y, In x U -> In y U -> Q x y -> m x = m y) -> forall x y, In x U -> In y U -> Q x y -> m' x = m' y.
  Proof.
    induction fuel as [|fuel IH]; intros d m Hp L.
    - assert (B := part_bound _ _ _ Hp). lia.
    - cbn [split_loop]. destruct (find_split_ok d m Hp) as [[-> St]|(g & l & ps & -> & Hl & Ps & Lp)]; cbn [rbind].
      + exists d, m. split; [reflexivity|]. auto 6.
      + destruct (split_step d m g l ps Hp Hl Ps) as (d1 & m1 & -> & Hp1 & L1 & K). cbn [rbind].
        destruct (IH d1 m1 Hp1 ltac:(lia)) as (d2 & m2 & -> & Hp2 & St & Fin & Co). exists d2, m2. split; [reflexivity|]. split; [exact Hp2|]. split; [exact St|]. split.
        * intros x y Hx Hy E. apply K; auto.
        * intros Q RQ HQ. apply Co; [exact RQ|]. intros x y Hx Hy H. apply K; auto. split; [auto|]. intros _. apply (respects_sig Q); auto.
  Qed.
End Loop.

(** ** The first groups *)
Lemma rfold_map {A B C} (f : C -> B -> result C) (g : A -> B) l : forall c, rfold (fun c x => f c (g x)) l c = rfold f (map g l) c.
Proof. induction l as [|x l IH]; intros c; cbn [rfold map]; [reflexivity|]. destruct (f c (g x)); cbn [rbind]; auto. Qed.
Lemma rep_of_groups : forall (d : gdict) m, NoDup (List.concat (map snd d)) ->
  forall g l x, In (g, l) d -> In x l -> fold_left (fun m g => rset_all m (snd g) (fst g)) d m x = Some g.
Proof.
  assert (Out : forall (d : gdict) m x, ~ In x (List.concat (map snd d)) -> fold_left (fun m g => rset_all m (snd g) (fst g)) d m x = m x).
  { induction d as [|[g l] d IH]; intros m x H; [reflexivity|]. cbn [map snd List.concat] in H. rewrite in_app_iff in H. cbn [fold_left fst snd]. rewrite IH by tauto.
    rewrite rset_all_get. destruct (nin x l) eqn:E; [apply nin_in in E; tauto|reflexivity]. }
  induction d as [|[g l] d IH]; intros m N g0 l0 x [] Hx; cbn [map snd List.concat] in N; cbn [fold_left fst snd].
  - injection H as <- <-. rewrite Out; [|intros X; exact (nodup_app_disj _ _ x N Hx X)]. rewrite rset_all_get. apply nin_in in Hx. now rewrite Hx.
  - eapply IH; eauto. eapply nodup_app_r; exact N.
Qed.
Lemma objects_ids (rs : list rule) : map fst (objects rs) = seq 0 (List.length rs).
Proof.
  unfold objects. assert (G : forall k, map fst (combine (seq k (List.length rs)) rs) = seq k (List.length rs)); [|apply G].
  induction rs as [|R rs IH]; intros k; [reflexivity|]. cbn [List.length seq combine map fst]. f_equal. apply IH.
Qed.

Section First.
  Context (rules : list rule) (t : tree).
  Context (Hk : forall R, In R rules -> exists k, similar_key (rcore R) = Ok k).
  Definition keyed (i : nat) (k : simkey) : Prop := exists R, nth_error rules i = Some R /\ similar_key (rcore R) = Ok k.
  Lemma keyed_list : exists ks, rall (map (fun x => do k <- similar_key (rcore (snd x)); Ok (k, fst x)) (objects rules)) = Ok ks /\
    map snd ks = seq 0 (List.length rules) /\ forall k i, In (k, i) ks <-> keyed i k.
  Proof.
    destruct (rall_all (fun x : nat * rule => do k <- similar_key (rcore (snd x)); Ok (k, fst x)) (fun x y => snd y = fst x /\ similar_key (rcore (snd x)) = Ok (fst y)) (objects rules)) as (ks & E & F).
    - intros x Hx. destruct (Hk (snd x) (objects_rule _ _ Hx)) as (k & Ek). rewrite Ek. cbn [rbind]. exists (k, fst x). auto.
    - exists ks. split; [exact E|]. split.
      + rewrite <- objects_ids. clear E. induction F as [|x y l l' [H _] F IH]; [reflexivity|]. cbn [map]. now rewrite H, IH.
      + intros k i. unfold keyed. clear E. assert (G : forall k i, In (k, i) ks <-> exists R, In (i, R) (objects rules) /\ similar_key (rcore R) = Ok k).
        { induction F as [|[i0 R0] [k0 j0] l l' [H1 H2] F IH]; intros k1 i1; cbn [In fst snd] in *; [split; [intros []|intros (R & [] & _)]|].
          rewrite IH. subst j0. split.
          - intros [[= -> ->]|(R & A & B)]; [exists R0|exists R]; auto.
          - intros (R & [[= -> ->]|A] & B); [left; congruence|right; eauto]. }
        rewrite G. split; intros (R & A & B); exists R; split; auto; now apply objects_in.
  Qed.
  Lemma first_groups_ok : (forall i j k k', keyed i k -> keyed j k' -> is_ok (sim_cmp k k') = true) ->
    exists d m, first_groups rules t = Ok (d, m) /\ part_ok (seq 0 (List.length rules)) d m /\
      forall i j k k', keyed i k -> keyed j k' -> (m i = m j <-> k = k').
  Proof.
    intros Cmp. destruct keyed_list as (ks & E & Sk & Ik). unfold first_groups. rewrite E. cbn [rbind]. unfold similar_sort.
    assert (Ca : forall x y, In x ks -> In y ks -> is_ok (sim_cmp (fst x) (fst y)) = true).
    { intros [k i] [k' j] Hx Hy. apply Ik in Hx, Hy. cbn [fst]. eauto. }
    assert (Cb : forallb (fun x => forallb (fun y => is_ok (sim_cmp (fst x) (fst y))) ks) ks = true).
    { apply forallb_forall. intros x Hx. apply forallb_forall. intros y Hy. auto. }
    rewrite Cb. cbn [rbind].
    assert (Es : sort_by (fun x y => sim_le (fst x) (fst y)) ks = sort_by kle ks) by (apply sort_by_ext; intros x y Hx Hy; unfold kle; apply key_le_total; auto).
    rewrite Es. set (l := sort_by kle ks). assert (Pl : Permutation l ks) by apply sort_by_perm.
    destruct (groupby_ok l) as (Gc & Gi & Gn & _).
    { apply sort_by_sorted; unfold kle; intros; [now apply cle_total; [apply keyc_ok|]|eapply cle_trans; [apply keyc_ok|..]; eauto]. }
    { intros x y Hx Hy. apply Ca; now apply (Permutation_in _ Pl). }
    assert (Npos : NoDup (map snd l)) by (eapply Permutation_NoDup; [apply Permutation_map, Permutation_sym; exact Pl|rewrite Sk; apply seq_NoDup]).
    set (ls := map (fun g => sort_by (pc_le t) (snd g)) (groupby l)).
    assert (Pc : Permutation (List.concat ls) (map snd l)).
    { rewrite <- Gc. unfold ls. clear. induction (groupby l) as [|g r IH]; [reflexivity|]. cbn [map List.concat]. apply Permutation_app; [apply sort_by_perm|exact IH]. }
    assert (Nc : NoDup (List.concat ls)) by (eapply Permutation_NoDup; [apply Permutation_sym; exact Pc|exact Npos]).
    assert (Ne : forall l0, In l0 ls -> l0 <> []).
    { intros l0 H. apply in_map_iff in H as ([k g] & <- & H). destruct (Gi k g H) as [H1 _]. cbn [snd]. intros X. apply H1. assert (P := sort_by_perm (pc_le t) g). rewrite X in P. now apply Permutation_nil in P. }
    assert (Er : rfold (fun d g => put_group d (sort_by (pc_le t) (snd g))) (groupby l) [] = Ok (map mk_group ls)).
    { rewrite (rfold_map put_group (fun g => sort_by (pc_le t) (snd g))). fold ls. rewrite put_groups_ok; [reflexivity|exact Ne|exact Nc|]. intros x _ []. }
    rewrite Er. cbn [rbind]. eexists _, _. split; [reflexivity|].
    assert (Rep := rep_of_groups (map mk_group ls) (fun _ => None)). rewrite groups_perm in Rep. specialize (Rep Nc).
    assert (PO : part_ok (seq 0 (List.length rules)) (map mk_group ls) (fold_left (fun m g => rset_all m (snd g) (fst g)) (map mk_group ls) (fun _ => None))).
    { split; [apply seq_NoDup|]. split; [|split; [|exact Rep]].
      - rewrite groups_perm, Pc, Pl, Sk. reflexivity.
      - intros g l0 H. apply mk_group_in in H as [H ->]. specialize (Ne l0 H). destruct l0 as [|x l0]; [congruence|]. exists l0. reflexivity. }
    split; [exact PO|].
    assert (Find : forall i k, keyed i k -> exists g, In (k, g) (groupby l) /\ In i (sort_by (pc_le t) g)).
    { intros i k H. assert (H' := H). apply Ik in H. apply (Permutation_in _ (Permutation_sym Pl)) in H. apply (in_map snd) in H. cbn [snd] in H. rewrite <- Gc in H.
      apply in_concat in H as (g & H1 & H2). apply in_map_iff in H1 as ([k' g'] & <- & H1). cbn [snd] in H2. destruct (Gi k' g' H1) as [_ K].
      assert (K' := K i H2). apply (Permutation_in _ Pl) in K'. apply Ik in K'. assert (k' = k) as ->.
      { destruct H' as (R & A & B), K' as (R' & A' & B'). congruence. }
      exists g'. split; [exact H1|]. apply (Permutation_in _ (Permutation_sym (sort_by_perm _ _))). exact H2. }
    intros i j k k' Hi Hj. destruct (Find i k Hi) as (g & Hg & Ig), (Find j k' Hj) as (g' & Hg' & Ig').
    assert (A : forall k g i, In (k, g) (groupby l) -> In i (sort_by (pc_le t) g) -> fold_left (fun m g => rset_all m (snd g) (fst g)) (map mk_group ls) (fun _ => None) i = Some (hd O (sort_by (pc_le t) g))).
    { intros k0 g0 i0 H1 H2. eapply Rep; [|exact H2]. change (In (mk_group (sort_by (pc_le t) g0)) (map mk_group ls)). apply in_map. unfold ls.
      apply in_map_iff. exists (k0, g0). auto. }
    rewrite (A _ _ _ Hg Ig), (A _ _ _ Hg' Ig'). split.
    - intros [= X]. assert (Hh : forall b z, In z b -> In (hd O b) b) by (intros [|? ?] z; [intros []|now left]).
      assert (I1 := Hh _ _ Ig). assert (I2 := Hh _ _ Ig'). rewrite <- X in I2. apply (Permutation_in _ (sort_by_perm _ _)) in I1, I2.
      apply (proj2 (Gi _ _ Hg)) in I1. apply (proj2 (Gi _ _ Hg')) in I2. apply (Permutation_in _ Pl) in I1, I2. apply Ik in I1, I2.
      destruct I1 as (R & A1 & B1), I2 as (R' & A' & B'). congruence.
    - intros <-. assert (g = g') as ->; [|reflexivity].
      clear - Gn Hg Hg'. induction (groupby l) as [|[a b] r IH]; [destruct Hg|]. cbn [map fst] in Gn. inversion Gn as [|? ? N1 N2]; subst.
      destruct Hg as [[= -> ->]|Hg], Hg' as [[= E]|Hg']; [congruence| | |auto].
      + elim N1. apply in_map_iff. exists (k, g'). auto.
      + subst a. elim N1. apply in_map_iff. exists (k, g). auto.
  Qed.
  Lemma first_groups_mixed i j k k' : keyed i k -> keyed j k' -> is_ok (sim_cmp k k') = false -> first_groups rules t = Err TypeError.
  Proof.
    intros Hi Hj H. destruct keyed_list as (ks & E & Sk & Ik). unfold first_groups. rewrite E. cbn [rbind]. unfold similar_sort.
    destruct (forallb (fun x => forallb (fun y => is_ok (sim_cmp (fst x) (fst y))) ks) ks) eqn:X; [|reflexivity].
    apply Ik in Hi, Hj. assert (X1 := proj1 (forallb_forall _ _) X _ Hi). assert (X2 := proj1 (forallb_forall _ _) X1 _ Hj). cbn [fst] in X2. congruence.
  Qed.
End First.

(** ** The groups *)
Section Groups.
  Context (rules : list rule) (deps : list edge).
  Context (Hk : forall R, In R rules -> exists k, similar_key (rcore R) = Ok k).
  Context (Hd : forall a b, In (a, b) deps -> a < List.length rules /\ b < List.length rules).
  Let U := seq 0 (List.length rules).
  Let t := node_to_tree deps.
  Lemma deps_closed x y : In x U -> In y (tparents t x ++ tchildren t x) -> In y U.
  Proof.
    intros _ H. unfold U. apply in_seq. apply in_app_or in H as [H|H]; [apply tree_parents_in in H|apply tree_children_in in H]; apply Hd in H; lia.
  Qed.
  Lemma create_ok : (forall i j k k', keyed rules i k -> keyed rules j k' -> is_ok (sim_cmp k k') = true) ->
    exists d m, create_similar_groups rules deps = Ok (d, m) /\ part_ok U d m /\ stable t d m /\
      (forall i j k k', keyed rules i k -> keyed rules j k' -> m i = m j -> k = k') /\
      forall Q, respects t Q -> (forall i j k k', keyed rules i k -> keyed rules j k' -> Q i j -> k = k') -> forall x y, In x U -> In y U -> Q x y -> m x = m y.
  Proof.
    intros Cmp. unfold create_similar_groups. fold t. destruct (first_groups_ok rules t Hk Cmp) as (d & m & -> & P & K). cbn [rbind]. fold U in P.
    destruct (split_loop_ok t U deps_closed (S (List.length rules)) d m P) as (d' & m' & E & P' & St & Fin & Co).
    - unfold U. rewrite seq_length. lia.
    - exists d', m'. split; [exact E|]. split; [exact P'|]. split; [exact St|].
      assert (In_U : forall i k, keyed rules i k -> In i U) by (intros i k (R & H & _); apply in_seq; assert (X : nth_error rules i <> None) by congruence; apply nth_error_Some in X; lia).
      split.
      + intros i j k k' Hi Hj H. apply (K i j k k' Hi Hj). apply Fin; eauto.
      + intros Q RQ HQ. apply Co; [exact RQ|]. intros x y Hx Hy Hq.
        assert (Ke : forall i, In i U -> exists k, keyed rules i k).
        { intros i Hi. apply in_seq in Hi. destruct (nth_error rules i) as [R|] eqn:ER; [|apply nth_error_None in ER; lia]. destruct (Hk R) as (k & Ek); [eapply nth_error_In; eauto|]. exists k, R. auto. }
        destruct (Ke x Hx) as (k & Kx), (Ke y Hy) as (k' & Ky). apply (K x y k k' Kx Ky). eauto.
  Qed.
End Groups.
