(** Proofs about select_compressed_ruleset. *)
From Coq Require Import Lia Permutation Sorted.
From Coq Require Import ZifyBool ZifyNat ZifyN.
From Verif Require Import Compress SpecCompress DepsProofs DepsTable TreeProofs GroupProofs.
Local Open Scope string_scope.
Local Open Scope list_scope.
Local Open Scope nat_scope.
Local Opaque NB WC_FULLWC layout oxm_fields registry_init.

(** swapping to the front *)
Lemma index_of_ok x l : In x l -> exists k, Compress.index_of x l = Ok k.
Proof.
  induction l as [|y l IH]; [intros []|]. cbn [Compress.index_of]. destruct (Nat.eqb_spec x y) as [->|N]; [eauto|]. intros [->|H]; [congruence|]. destruct (IH H) as (k & ->). cbn [rbind]. eauto.
Qed.
Lemma index_of_split x l : forall k d, Compress.index_of x l = Ok k -> nth k l d = x /\ l = firstn k l ++ x :: skipn (S k) l.
Proof.
  induction l as [|y l IH]; intros k d; cbn [Compress.index_of]; [discriminate|]. destruct (Nat.eqb_spec x y) as [->|N]; [intros [= <-]; split; reflexivity|].
  destruct (Compress.index_of x l) as [k'|]; [|discriminate]. cbn [rbind]. intros [= <-]. destruct (IH k' d eq_refl) as [A B]. split; [exact A|].
  change (y :: l = y :: (firstn k' l ++ x :: skipn (S k') l)). now rewrite <- B.
Qed.
Lemma swap0_ok x y r k : Compress.index_of x (y :: r) = Ok k -> x <> y -> exists k' r', k = S k' /\ swap0 k (y :: r) = x :: r' /\ Permutation (x :: r') (y :: r).
Proof.
  cbn [Compress.index_of]. intros H N. destruct (Nat.eqb_spec x y) as [E|_]; [congruence|]. destruct (Compress.index_of x r) as [k'|] eqn:E; [|discriminate H]. cbn [rbind] in H. injection H as <-.
  destruct (index_of_split x r k' y E) as [A B]. exists k', (firstn k' r ++ y :: skipn (S k') r). split; [reflexivity|]. cbn [swap0]. rewrite A. split; [reflexivity|].
  rewrite <- Permutation_middle. rewrite perm_swap. constructor. rewrite B at 3. apply Permutation_middle.
Qed.

Section Sel.
  Context (ord : list nat -> list nat) (ord_perm : forall l, Permutation (ord l) l) (rules : list rule) (t : tree).
  Context (U : list nat) (d0 : gdict) (m0 : rdict).
  Context (closed : forall x y, In x U -> In y (tparents t x ++ tchildren t x) -> In y U).
  Context (P0 : part_ok U d0 m0) (St0 : stable t d0 m0) (Mi : forall a b, In a (tparents t b) <-> In b (tchildren t a)).
  Context (Sk : forall x y, In x U -> In y U -> m0 x = m0 y -> skey rules x = skey rules y).

  Record sel_ok (s : sel) : Prop := {
    so_part : part_ok U (sgroups s) (srep s);
    so_cls : forall x y, In x U -> In y U -> (srep s x = srep s y <-> m0 x = m0 y);
    so_nodup : NoDup (sassigned s);
    so_rep : forall a, In a (sassigned s) -> In a U /\ srep s a = Some a }.
  Definition taken (s : sel) (x : nat) : Prop := exists a, In a (sassigned s) /\ m0 a = m0 x.

  Lemma part_cls d m g l x : part_ok U d m -> In (g, l) d -> In x U -> (In x l <-> m x = Some g).
  Proof.
    intros Hp Hl Hx. split; [intros X; eapply (proj2 (proj2 (proj2 Hp))); eauto|]. intros X. destruct (part_find _ _ _ _ Hp Hx) as (g1 & l1 & A & B & C). assert (g1 = g) by congruence. subst g1.
    assert (l1 = l) by (apply (part_get _ _ _ _ _ Hp) in A; apply (part_get _ _ _ _ _ Hp) in Hl; congruence). now subst.
  Qed.
  Lemma part_rep d m x g : part_ok U d m -> In x U -> m x = Some g -> In g U /\ m g = Some g /\ exists l, In (g, l) d /\ In x l.
  Proof.
    intros Hp Hx E. destruct (part_find _ _ _ _ Hp Hx) as (g1 & l1 & A & B & C). assert (g1 = g) by congruence. subst g1.
    assert (H := part_head _ _ _ _ _ Hp A). split; [eapply part_in; eauto|]. split; [eapply (proj2 (proj2 (proj2 Hp))); eauto|]. eauto.
  Qed.

  Lemma switch_ok s c : sel_ok s -> In c U -> exists s', switch_assigned s c = Ok s' /\ sel_ok s' /\
    (forall x, In x U -> m0 x = m0 c -> srep s' x = Some c) /\ (forall x, In x U -> m0 x <> m0 c -> srep s' x = srep s x) /\
    (forall a, In a (sassigned s') <-> (In a (sassigned s) /\ m0 a <> m0 c) \/ (a = c /\ taken s c)).
  Proof.
    intros Hs Hc. destruct Hs as [Hp Hcls Hnd Hrep]. destruct (part_find _ _ _ _ Hp Hc) as (old & l & Hl & Hcl & Ec).
    assert (Mdec : forall x y, In x U -> In y U -> {m0 x = m0 y} + {m0 x <> m0 y}) by (intros x y _ _; decide equality; apply Nat.eq_dec).
    unfold switch_assigned, rget. rewrite Ec. cbn [rbind]. destruct (Nat.eqb_spec old c) as [->|Ne].
    - exists s. split; [reflexivity|]. split; [split; auto|]. split; [|split].
      + intros x Hx E. rewrite <- Ec. now apply Hcls.
      + auto.
      + intros a. split.
        * intros Ha. destruct (Hrep a Ha) as [Ua Ea]. destruct (Mdec a c Ua Hc) as [E|E]; [right|left; auto]. split; [|exists a; auto].
          apply Hcls in E; auto. congruence.
        * intros [[H _]|[-> (b & Hb & E)]]; [exact H|]. destruct (Hrep b Hb) as [Ub Eb]. apply Hcls in E; auto. assert (b = c) by congruence. now subst.
    - rewrite (part_get _ _ _ _ _ Hp Hl). cbn [rbind]. destruct (proj1 (proj2 (proj2 Hp)) old l Hl) as (r & El). destruct (index_of_ok c l Hcl) as (k & Ek). rewrite Ek. cbn [rbind].
      rewrite El in Ek. destruct (swap0_ok c old r k Ek ltac:(congruence)) as (k' & r' & -> & Esw & Psw). cbn [Nat.ltb Nat.leb]. rewrite <- El in Esw, Psw. rewrite Esw.
      eexists. split; [reflexivity|]. assert (ND := part_keys_nodup _ _ _ Hp). assert (Pd := gdel_perm (sgroups s) old l ND Hl).
      assert (Pc : Permutation (List.concat (map snd (sgroups s))) (l ++ List.concat (map snd (gdel (sgroups s) old)))).
      { change (l ++ List.concat (map snd (gdel (sgroups s) old))) with (List.concat (map snd ((old, l) :: gdel (sgroups s) old))). clear - Pd.
        induction Pd as [|[a b] x y P IH|[a b] [c e] x|x y z P1 IH1 P2 IH2]; cbn [map snd List.concat]; [reflexivity|now apply Permutation_app_head| |etransitivity; eauto].
        rewrite !app_assoc. apply Permutation_app_tail. apply Permutation_app_comm. }
      assert (NC : NoDup (l ++ List.concat (map snd (gdel (sgroups s) old)))).
      { eapply Permutation_NoDup; [exact Pc|]. eapply Permutation_NoDup; [apply Permutation_sym, (proj1 (proj2 Hp))|apply Hp]. }
      assert (Hg : forall g' l', In (g', l') (gdel (sgroups s) old) -> In (g', l') (sgroups s)) by (intros g' l' X; unfold gdel in X; apply filter_In in X; apply X).
      assert (Fr : ~ In c (map fst (gdel (sgroups s) old))).
      { intros X. apply keys_in in X; [|intros; apply (proj1 (proj2 (proj2 Hp))); auto]. exact (nodup_app_disj _ _ c NC Hcl X). }
      rewrite (gset_fresh _ _ _ Fr).
      assert (InL : forall x, In x U -> (In x l <-> m0 x = m0 c)).
      { intros x Hx. rewrite (part_cls _ _ _ _ _ Hp Hl Hx), <- Ec. apply Hcls; auto. }
      assert (R1 : forall x, In x U -> m0 x = m0 c -> rset_all (srep s) l c x = Some c).
      { intros x Hx E. rewrite rset_all_get. apply InL in E; [|exact Hx]. apply nin_in in E. now rewrite E. }
      assert (R2 : forall x, In x U -> m0 x <> m0 c -> rset_all (srep s) l c x = srep s x).
      { intros x Hx E. rewrite rset_all_get. destruct (nin x l) eqn:X; [|reflexivity]. apply nin_in in X. apply InL in X; [contradiction|exact Hx]. }
      assert (Old : m0 old = m0 c) by (apply InL; [eapply part_in; [exact Hp|exact Hl|]|]; rewrite El; now left).
      assert (Uold : In old U) by (eapply part_in; [exact Hp|exact Hl|]; rewrite El; now left).
      assert (Tk : taken s c <-> In old (sassigned s)).
      { split; [|intros H; exists old; auto]. intros (b & Hb & E). destruct (Hrep b Hb) as [Ub Eb]. apply Hcls in E; auto. assert (b = old) by congruence. now subst. }
      assert (As : forall a, In a (if nin old (sassigned s) then set_add (filter (fun x => negb (x =? old)) (sassigned s)) c else sassigned s) <-> (In a (sassigned s) /\ m0 a <> m0 c) \/ (a = c /\ taken s c)).
      { intros a. rewrite Tk. assert (Aux : In a (sassigned s) -> (m0 a <> m0 c <-> a <> old)).
        { intros Ha. destruct (Hrep a Ha) as [Ua Ea]. rewrite <- (Hcls a c Ua Hc), Ea, Ec. split; congruence. }
        destruct (nin old (sassigned s)) eqn:X.
        - apply nin_in in X. rewrite set_add_in, filter_In, negb_true_iff, Nat.eqb_neq. intuition auto.
        - apply nin_out in X. split; [|tauto]. intros Ha. left. split; [exact Ha|]. apply Aux; [exact Ha|]. intros ->. contradiction. }
      cbn [srep sassigned]. split; [|split; [exact R1|split; [exact R2|exact As]]]. split; cbn [sgroups srep sassigned].
      + split; [apply Hp|]. split; [|split].
        * rewrite map_app, concat_app. cbn [map snd List.concat]. rewrite app_nil_r, Permutation_app_comm. rewrite Psw, <- Pc. apply Hp.
        * intros g l0 H. apply in_app_or in H as [H|[[= <- <-]|[]]]; [apply (proj1 (proj2 (proj2 Hp))); auto|eauto].
        * intros g l0 x H Hx. apply in_app_or in H as [H|[[= <- <-]|[]]].
          -- assert (Ux : In x U) by (eapply part_in; [exact Hp|exact (Hg _ _ H)|exact Hx]). assert (Ex : srep s x = Some g) by (apply (part_cls _ _ _ _ _ Hp (Hg _ _ H) Ux); exact Hx).
             rewrite R2; [exact Ex|exact Ux|]. rewrite <- (InL x Ux). intros X. apply (nodup_app_disj _ _ x NC X). apply in_concat. exists l0. split; [apply in_map_iff; exists (g, l0); auto|exact Hx].
          -- apply (Permutation_in _ Psw) in Hx. assert (Ux : In x U) by (eapply part_in; eauto). apply R1; [exact Ux|]. now apply InL.
      + intros x y Hx Hy. destruct (Mdec x c Hx Hc) as [E1|E1], (Mdec y c Hy Hc) as [E2|E2].
        * rewrite (R1 x), (R1 y) by auto. split; congruence.
        * rewrite (R1 x), (R2 y) by auto. split; [|congruence]. intros X. exfalso. apply E2. symmetry in X.
          destruct (part_rep _ _ _ _ Hp Hy X) as (_ & Xc & _). congruence.
        * rewrite (R2 x), (R1 y) by auto. split; [|congruence]. intros X. exfalso. apply E1.
          destruct (part_rep _ _ _ _ Hp Hx X) as (_ & Xc & _). congruence.
        * rewrite (R2 x), (R2 y) by auto. now apply Hcls.
      + destruct (nin old (sassigned s)); [apply set_add_nodup, NoDup_filter; exact Hnd|exact Hnd].
      + intros a Ha. apply As in Ha as [[Ha N]|[-> Ha]]; [destruct (Hrep a Ha) as [Ua Ea]; split; [exact Ua|]; rewrite R2; auto|]. split; [exact Hc|]. now apply R1.
  Qed.

  (** ** Checking options *)
  Lemma rep_ok s k : sel_ok s -> In k U -> exists g, srep s k = Some g.
  Proof. intros Hs Hk. destruct (part_find _ _ _ _ (so_part _ Hs) Hk) as (g & l & _ & _ & E). eauto. Qed.
  Definition deps_of (x : nat) : list nat := tchildren t x ++ tparents t x.
  Definition fits (s : sel) (x : nat) : Prop := forall y g, In y (deps_of x) -> srep s y = Some g -> In g (sassigned s) -> In g (deps_of x).
  Lemma deps_U x y : In x U -> In y (deps_of x) -> In y U.
  Proof. intros Hx Hy. eapply closed; [exact Hx|]. unfold deps_of in Hy. rewrite in_app_iff in *. tauto. Qed.
  Lemma check_full_ok s x : sel_ok s -> In x U -> exists e o, check_option_full t s x = Ok (e, o) /\ (seteq e o = true -> fits s x) /\ (forall y, In y (minus e o) -> In y (sassigned s)).
  Proof.
    intros Hs Hx. unfold check_option_full. fold (deps_of x). destruct (rgets_ok (srep s) (to_set (deps_of x))) as (gs & -> & Hg).
    - intros k Hk. rewrite to_set_in in Hk. apply (rep_ok s k Hs). eapply deps_U; [exact Hx|exact Hk].
    - cbn [rbind]. eexists _, _. split; [reflexivity|]. split.
      + intros E y g Hy Eg Ag. assert (X := proj1 (seteq_in _ _) E g). rewrite !inter_in, !to_set_in, Hg in X. apply X. split; [|exact Ag]. exists y. split; [now rewrite to_set_in|exact Eg].
      + intros y Hy. apply minus_in in Hy as [Hy _]. apply inter_in in Hy. apply Hy.
  Qed.
  Lemma check_ok s x : sel_ok s -> In x U -> exists e o, check_option t s x = Ok (e, o) /\
    (seteq e o = true -> forall y g, In y (tchildren t x) -> srep s y = Some g -> In g (tchildren t x) /\ In g (sassigned s)).
  Proof.
    intros Hs Hx. unfold check_option. destruct (rgets_ok (srep s) (to_set (tchildren t x))) as (gs & -> & Hg).
    - intros k Hk. rewrite to_set_in in Hk. apply (rep_ok s k Hs). eapply deps_U; [exact Hx|]. unfold deps_of. apply in_or_app. now left.
    - cbn [rbind]. eexists _, _. split; [reflexivity|]. intros E y g Hy Eg. assert (X := proj1 (seteq_in _ _) E g). rewrite inter_in, !to_set_in, Hg in X. apply X.
      exists y. split; [now rewrite to_set_in|exact Eg].
  Qed.
  Lemma allowed_ok s x : sel_ok s -> In x U -> exists l, allowed_options t s x = Ok l /\ forall o, In o l -> In o U /\ m0 o = m0 x /\ fits s o.
  Proof.
    intros Hs Hx. unfold allowed_options, rget. destruct (part_find _ _ _ _ (so_part _ Hs) Hx) as (g & l & Hl & Xl & E). rewrite E. cbn [rbind].
    rewrite (part_get _ _ _ _ _ (so_part _ Hs) Hl). cbn [rbind].
    destruct (rall_all (fun o => do eo <- check_option_full t s o; Ok (if seteq (fst eo) (snd eo) then [o] else [])) (fun o r => forall z, In z r -> z = o /\ fits s o) l) as (rs & -> & F).
    - intros o Ho. assert (Uo : In o U) by (eapply part_in; [apply (so_part _ Hs)|exact Hl|exact Ho]). destruct (check_full_ok s o Hs Uo) as (e & ov & -> & K & _). cbn [rbind fst snd].
      destruct (seteq e ov) eqn:Es; eexists; (split; [reflexivity|]); [|intros z []]. intros z [<-|[]]. auto.
    - cbn [rbind]. eexists. split; [reflexivity|]. intros o Ho. rewrite to_set_in in Ho. apply in_concat in Ho as (r & H1 & H2).
      assert (exists o', In o' l /\ o = o' /\ fits s o') as (o' & A & -> & B).
      { clear - F H1 H2. induction F as [|a b l1 l2 H F IH]; [destruct H1|]. destruct H1 as [->|H1]; [exists a; destruct (H o H2); cbn; auto|]. destruct (IH H1) as (o' & A & B). exists o'. cbn. tauto. }
      assert (Uo : In o' U) by (eapply part_in; [apply (so_part _ Hs)|exact Hl|exact A]). split; [exact Uo|]. split; [|exact B].
      apply (so_cls _ Hs); auto. rewrite E. apply (part_cls _ _ _ _ _ (so_part _ Hs) Hl Uo). exact A.
  Qed.

  (** ** Keeping the dependencies *)
  Context (mono : Prop) (Mono : mono -> forall a b, In b (tchildren t a) -> skey_le rules b a = false).
  Definition kept (A : list nat) : Prop := forall a b x y, In a A -> In b A -> In x U -> In y U -> m0 x = m0 a -> m0 y = m0 b -> In y (tchildren t x) -> In b (tchildren t a).
  Lemma stable_child x a y : In x U -> In a U -> m0 x = m0 a -> In y (tchildren t x) -> exists y', In y' (tchildren t a) /\ m0 y' = m0 y.
  Proof.
    intros Hx Ha E Hy. destruct (part_find _ _ _ _ P0 Hx) as (g & l & Hl & Xl & Ex). assert (Al : In a l) by (apply (part_cls _ _ _ _ _ P0 Hl Ha); congruence).
    assert (Uy : In y U) by (eapply closed; [exact Hx|apply in_or_app; now right]). destruct (part_find _ _ _ _ P0 Uy) as (g' & _ & _ & _ & Ey).
    destruct (proj1 (proj2 (St0 g l x a Hl Xl Al) g')) as (y' & H1 & H2); [eauto|]. exists y'. split; [exact H1|congruence].
  Qed.
  Lemma stable_parent x a y : In x U -> In a U -> m0 x = m0 a -> In y (tparents t x) -> exists y', In y' (tparents t a) /\ m0 y' = m0 y.
  Proof.
    intros Hx Ha E Hy. destruct (part_find _ _ _ _ P0 Hx) as (g & l & Hl & Xl & Ex). assert (Al : In a l) by (apply (part_cls _ _ _ _ _ P0 Hl Ha); congruence).
    assert (Uy : In y U) by (eapply closed; [exact Hx|apply in_or_app; now left]). destruct (part_find _ _ _ _ P0 Uy) as (g' & _ & _ & _ & Ey).
    destruct (proj1 (proj1 (St0 g l x a Hl Xl Al) g')) as (y' & H1 & H2); [eauto|]. exists y'. split; [exact H1|congruence].
  Qed.
  Lemma skey_cmp_same a b c d : skey rules a = skey rules b -> skey rules c = skey rules d -> skey_le rules a c = skey_le rules b d.
  Proof. intros H1 H2. unfold skey_le. now rewrite H1, H2. Qed.
  Lemma skey_le_flip a b : skey_le rules a b = false -> skey_le rules b a = true.
  Proof. unfold skey_le. lia. Qed.
  Lemma kept_add s c A : mono -> sel_ok s -> In c U -> kept (sassigned s) -> fits s c ->
    (forall a, In a A -> a = c \/ (In a (sassigned s) /\ m0 a <> m0 c)) -> kept A.
  Proof.
    intros Hmo Hs Hc K F HA a b x y Ha Hb Ux Uy Ex Ey Exy. assert (M := Mono Hmo).
    destruct (HA a Ha) as [->|[Ha1 Na]], (HA b Hb) as [->|[Hb1 Nb]].
    - exfalso. assert (X := M x y Exy). rewrite (skey_cmp_same y x x x) in X; [unfold skey_le in X; lia| |reflexivity]. apply Sk; auto; congruence.
    - destruct (so_rep _ Hs b Hb1) as [Ub Eb]. destruct (stable_child x c y Ux Hc Ex Exy) as (y' & Hy' & Ey').
      assert (Uy' : In y' U) by (eapply closed; [exact Hc|apply in_or_app; now right]).
      assert (X : In b (deps_of c)) by (apply (F y' b); [apply in_or_app; now left| |exact Hb1]; rewrite <- Eb; apply (so_cls _ Hs); auto; congruence).
      apply in_app_or in X as [X|X]; [exact X|]. exfalso. apply Mi in X. assert (X1 := M b c X). assert (X2 := M c y' Hy').
      rewrite (skey_cmp_same y' b c c) in X2; [|apply Sk; auto; congruence|reflexivity]. apply skey_le_flip in X1. congruence.
    - destruct (so_rep _ Hs a Ha1) as [Ua Ea]. assert (Pxy : In x (tparents t y)) by (now apply Mi). destruct (stable_parent y c x Uy Hc Ey Pxy) as (x' & Hx' & Ex').
      assert (Ux' : In x' U) by (eapply closed; [exact Hc|apply in_or_app; now left]).
      assert (X : In a (deps_of c)) by (apply (F x' a); [apply in_or_app; now right| |exact Ha1]; rewrite <- Ea; apply (so_cls _ Hs); auto; congruence).
      apply in_app_or in X as [X|X]; [|now apply Mi]. exfalso. assert (X1 := M c a X). apply Mi in Hx'. assert (X2 := M x' c Hx').
      rewrite (skey_cmp_same c c x' a) in X2; [|reflexivity|apply Sk; auto; congruence]. apply skey_le_flip in X1. congruence.
    - eapply (K a b x y); eauto.
  Qed.

  (** ** Moving assigned rules *)
  Definition moved (s s' : sel) : Prop :=
    sel_ok s' /\ (forall x, In x U -> (taken s' x <-> taken s x)) /\ (forall x, In x U -> srep s x = Some x -> ~ taken s x -> srep s' x = Some x) /\ (mono -> kept (sassigned s) -> kept (sassigned s')).
  Lemma moved_refl s : sel_ok s -> moved s s.
  Proof. intros H. split; [exact H|]. split; [reflexivity|]. split; auto. Qed.
  Lemma moved_trans s1 s2 s3 : moved s1 s2 -> moved s2 s3 -> moved s1 s3.
  Proof.
    intros (A1 & A2 & A3 & A4) (B1 & B2 & B3 & B4). split; [exact B1|]. split; [intros x Hx; rewrite B2, A2; tauto|]. split; [|auto].
    intros x Hx E N. apply B3; [exact Hx|auto|]. rewrite A2; auto.
  Qed.
  Lemma switch_moved s c s' : sel_ok s -> In c U -> taken s c -> (mono -> fits s c) -> switch_assigned s c = Ok s' -> moved s s'.
  Proof.
    intros Hs Hc Tc Fc E. destruct (switch_ok s c Hs Hc) as (s1 & E1 & Hs1 & R1 & R2 & As). rewrite E in E1. injection E1 as <-.
    split; [exact Hs1|]. split; [|split].
    - intros x Hx. split; intros (a & Ha & Ea).
      + apply As in Ha as [[Ha _]|[-> (b & Hb & Eb)]]; [exists a; auto|exists b; split; [exact Hb|congruence]].
      + assert (D : {m0 a = m0 c} + {m0 a <> m0 c}) by (decide equality; apply Nat.eq_dec). destruct D as [D|D].
        * exists c. split; [apply As; now right|congruence].
        * exists a. split; [apply As; now left|exact Ea].
    - intros x Hx Ex N. rewrite R2; auto. intros X. apply N. destruct Tc as (b & Hb & Eb). exists b. split; [exact Hb|congruence].
    - intros Hmo K. apply (kept_add s c); auto. intros a Ha. apply As in Ha as [Ha|[-> _]]; [now right|now left].
  Qed.
  Lemma move_each_ok x : forall l s s', sel_ok s -> (forall y, In y l -> In y U /\ taken s y) ->
    rfold (fun s y =>
      do a <- allowed_options t s y;
      match ord (inter a (to_set (tchildren t x))) with [] => Err IndexError | c :: _ => switch_assigned s c end) l s = Ok s' -> moved s s'.
  Proof.
    induction l as [|y l IH]; intros s s' Hs Hl; cbn [rfold]; [intros [= <-]; now apply moved_refl|].
    destruct (Hl y (or_introl eq_refl)) as [Uy Ty]. destruct (allowed_ok s y Hs Uy) as (a & -> & Ha). cbn [rbind].
    destruct (ord (inter a (to_set (tchildren t x)))) as [|c r] eqn:Eo; [discriminate|].
    assert (Hc : In c a).
    { assert (X : In c (inter a (to_set (tchildren t x)))) by (apply (Permutation_in _ (ord_perm _)); rewrite Eo; now left). apply inter_in in X. apply X. }
    destruct (Ha c Hc) as (Uc & Ec & Fc). destruct (switch_assigned s c) as [s1|e] eqn:E1; [|discriminate]. cbn [rbind]. intros E2.
    assert (M1 : moved s s1).
    { eapply switch_moved; eauto. destruct Ty as (b & Hb & Eb). exists b. split; [exact Hb|congruence]. }
    eapply moved_trans; [exact M1|]. eapply IH; [apply M1| |exact E2]. intros z Hz. destruct (Hl z (or_intror Hz)) as [Uz Tz]. split; [exact Uz|]. apply M1; auto.
  Qed.

  (** ** The loop *)
  Record inv (s : sel) (todo : list nat) : Prop := {
    iv_sel : sel_ok s;
    iv_todo : forall g, In g todo -> In g U /\ srep s g = Some g /\ ~ taken s g;
    iv_nodup : NoDup todo;
    iv_all : forall x, In x U -> taken s x \/ exists g, In g todo /\ m0 g = m0 x;
    iv_sorted : StronglySorted (fun a b => skey_le rules b a = true) todo;
    iv_order : forall x g, In x U -> taken s x -> In g todo -> skey_le rules g x = true;
    iv_kept : mono -> kept (sassigned s) }.
  Lemma finish s s1 g o todo s2 : inv s (g :: todo) -> moved s s1 -> In o U -> m0 o = m0 g -> (mono -> fits s1 o) -> switch_assigned s1 o = Ok s2 ->
    inv (mkSel (sgroups s2) (srep s2) (set_add (sassigned s2) o)) todo.
  Proof.
    intros [Hs Ht Hn Ha Hso Hor Hk] (Hs1 & T1 & R1 & K1) Uo Eo Fo E. destruct (switch_ok s1 o Hs1 Uo) as (s2' & E2 & Hs2 & Q1 & Q2 & As). rewrite E in E2. injection E2 as <-.
    destruct (Ht g (or_introl eq_refl)) as (Ug & Rg & Ng).
    assert (No : ~ taken s1 o).
    { intros X. apply Ng. apply T1 in X; [|exact Uo]. destruct X as (a & H1 & H2). exists a. split; [exact H1|congruence]. }
    assert (As' : forall a, In a (sassigned s2) <-> In a (sassigned s1)).
    { intros a. rewrite As. split; [tauto|]. intros H. left. split; [exact H|]. intros X. apply No. exists a. auto. }
    assert (Tk : forall x, In x U -> (taken (mkSel (sgroups s2) (srep s2) (set_add (sassigned s2) o)) x <-> taken s x \/ m0 x = m0 g)).
    { intros x Hx. rewrite <- (T1 x Hx). unfold taken. cbn [sassigned]. split.
      - intros (a & H1 & H2). apply set_add_in in H1 as [H1| ->]; [left; exists a; split; [now apply As'|exact H2]|right; congruence].
      - intros [(a & H1 & H2)|H]; [exists a|exists o]; rewrite set_add_in, As'; split; auto; congruence. }
    inversion Hn as [|? ? Hg Hn']; subst. inversion Hso as [|? ? Hso' Fso]; subst. rewrite Forall_forall in Fso.
    assert (Diff : forall h, In h todo -> m0 h <> m0 g).
    { intros h Hh X. destruct (Ht h (or_intror Hh)) as (Uh & Rh & _). apply (so_cls _ Hs) in X; auto. apply Hg. assert (h = g) by congruence. now subst. }
    split; cbn [sgroups srep sassigned].
    - split; cbn [sgroups srep sassigned]; [apply Hs2|apply Hs2|apply set_add_nodup, Hs2|].
      intros a H. apply set_add_in in H as [H| ->]; [now apply Hs2|]. split; [exact Uo|]. now apply Q1.
    - intros h Hh. destruct (Ht h (or_intror Hh)) as (Uh & Rh & Nh). split; [exact Uh|]. split.
      + rewrite Q2; [apply R1; auto|exact Uh|]. rewrite Eo. now apply Diff.
      + rewrite Tk by exact Uh. intros [X|X]; [contradiction|]. exact (Diff h Hh X).
    - exact Hn'.
    - intros x Hx. rewrite Tk by exact Hx. destruct (Ha x Hx) as [X|(h & [<-|Hh] & X)]; [auto|left; right; congruence|right; eauto].
    - exact Hso'.
    - intros x h Hx Tx Hh. apply Tk in Tx as [Tx|Tx]; [apply Hor; auto; now right| |exact Hx].
      assert (X := Fso h Hh). rewrite <- X. apply skey_cmp_same; [reflexivity|]. apply Sk; auto.
    - intros Hmo. apply (kept_add s1 o); auto. intros a H. apply set_add_in in H as [H| ->]; [|now left]. right. split; [now apply As'|]. apply As' in H. intros X. apply No. exists a. auto.
  Qed.
  Lemma first_option_ok s : sel_ok s -> forall l o, (forall x, In x l -> In x U) -> first_option t s l = Ok (Some o) ->
    In o l /\ forall y g, In y (tchildren t o) -> srep s y = Some g -> In g (tchildren t o) /\ In g (sassigned s).
  Proof.
    intros Hs. induction l as [|x l IH]; intros o HU; cbn [first_option]; [discriminate|].
    destruct (check_ok s x Hs (HU x (or_introl eq_refl))) as (e & ov & -> & K). cbn [rbind fst snd]. destruct (seteq e ov) eqn:E.
    - intros [= <-]. split; [now left|]. now apply K.
    - intros H. destruct (IH o (fun y Hy => HU y (or_intror Hy)) H) as [A B]. split; [now right|exact B].
  Qed.
  Lemma shift_ok s g todo : inv s (g :: todo) -> forall l s' o, (forall x diff, In (x, diff) l -> In x U /\ m0 x = m0 g /\ forall y, In y diff -> In y (sassigned s)) ->
    shift_rules ord t s l = Ok (s', o) -> inv (mkSel (sgroups s') (srep s') (set_add (sassigned s') o)) todo.
  Proof.
    intros Hi. induction l as [|[x diff] l IH]; intros s' o Hl; cbn [shift_rules]; [discriminate|].
    destruct (can_move t s x (ord diff)) as [b|e]; [|discriminate]. cbn [rbind]. destruct b.
    - destruct (move_all ord t s x (ord diff)) as [s1|e] eqn:E; [|discriminate]. cbn [rbind]. intros [= <- <-].
      unfold move_all in E. destruct (rfold _ (ord diff) s) as [s2|e] eqn:E2; [|discriminate]. cbn [rbind] in E.
      destruct (Hl x diff (or_introl eq_refl)) as (Ux & Ex & Dx).
      assert (M2 : moved s s2).
      { eapply move_each_ok; [apply Hi| |exact E2]. intros y Hy. apply (Permutation_in _ (ord_perm diff)) in Hy. apply Dx in Hy. split; [apply (so_rep _ (iv_sel _ _ Hi) y Hy)|exists y; auto]. }
      destruct (allowed_ok s2 x (proj1 M2) Ux) as (a & Ea & Ha). rewrite Ea in E. cbn [rbind] in E. destruct (nin x a) eqn:Nx; [|discriminate].
      apply nin_in in Nx. destruct (Ha x Nx) as (_ & _ & Fx). eapply finish; eauto.
    - intros H. eapply IH; [|exact H]. intros x0 d1 H0. apply Hl. now right.
  Qed.
  Lemma assign_ok s g todo s' : inv s (g :: todo) -> assign_group ord t s g = Ok s' -> inv s' todo.
  Proof.
    intros Hi E. destruct (iv_todo _ _ Hi g (or_introl eq_refl)) as (Ug & Rg & Ng). assert (Hs := iv_sel _ _ Hi). unfold assign_group in E.
    destruct (part_rep _ _ _ _ (so_part _ Hs) Ug Rg) as (_ & _ & l & Hl & _). rewrite (part_get _ _ _ _ _ (so_part _ Hs) Hl) in E. cbn [rbind] in E.
    assert (HU : forall x, In x l -> In x U) by (intros x Hx; eapply part_in; [apply (so_part _ Hs)|exact Hl|exact Hx]).
    assert (Hcl : forall x, In x l -> m0 x = m0 g).
    { intros x Hx. apply (so_cls _ Hs); auto. rewrite Rg. apply (part_cls _ _ _ _ _ (so_part _ Hs) Hl (HU x Hx)). exact Hx. }
    destruct (first_option t s l) as [[o|]|e] eqn:Ef; [| |discriminate]; cbn [rbind] in E.
    - destruct (switch_assigned s o) as [s1|e] eqn:E1; [|discriminate]. cbn [rbind] in E. injection E as <-.
      destruct (first_option_ok s Hs l o HU Ef) as [Ho K]. eapply finish; [exact Hi|apply moved_refl; exact Hs|auto|auto| |exact E1].
      intros Hmo y h Hy Eh Ah. apply in_app_or in Hy as [Hy|Hy]; [apply in_or_app; left; now apply (K y h)|]. exfalso.
      apply Mi in Hy. assert (X := Mono Hmo y o Hy). assert (Uo := HU o Ho). assert (Uy : In y U) by (eapply closed; [exact Uo|apply in_or_app; left; now apply Mi]).
      destruct (so_rep _ Hs h Ah) as [Uh Rh]. assert (Ey : m0 h = m0 y) by (apply (so_cls _ Hs); auto; congruence).
      assert (L := iv_order _ _ Hi y g Uy (ex_intro _ h (conj Ah Ey)) (or_introl eq_refl)).
      rewrite (skey_cmp_same o g y y) in X; [congruence| |reflexivity]. apply Sk; auto.
    - destruct (rall_all (fun o => do eo <- check_option_full t s o; Ok (o, minus (fst eo) (snd eo))) (fun o r => fst r = o /\ forall y, In y (snd r) -> In y (sassigned s)) l) as (ds & Ed & F).
      { intros o Ho. destruct (check_full_ok s o Hs (HU o Ho)) as (e & ov & -> & _ & K). cbn [rbind fst snd]. eexists. split; [reflexivity|]. cbn [fst snd]. auto. }
      rewrite Ed in E. cbn [rbind] in E. destruct (shift_rules ord t s _) as [[s1 o]|e] eqn:E1 in E; [|discriminate]. cbn [rbind] in E. injection E as <-.
      eapply shift_ok; [exact Hi| |exact E1]. intros x diff H. apply (Permutation_in _ (sort_by_perm _ _)) in H.
      assert (exists o', In o' l /\ x = o' /\ forall y, In y diff -> In y (sassigned s)) as (o' & A & -> & B).
      { clear - F H. induction F as [|a b l1 l2 [H1 H2] F IH]; [destruct H|]. destruct H as [->|H]; [exists a; cbn [fst snd] in *; cbn; auto|]. destruct (IH H) as (o' & A & B). exists o'. cbn. tauto. }
      auto.
  Qed.
  Lemma assign_all_ok : forall todo s s', inv s todo -> rfold (assign_group ord t) todo s = Ok s' -> inv s' [].
  Proof.
    induction todo as [|g todo IH]; intros s s' Hi; cbn [rfold]; [intros [= <-]; exact Hi|].
    destruct (assign_group ord t s g) as [s1|e] eqn:E; [|discriminate]. cbn [rbind]. intros H. eapply IH; [|exact H]. eapply assign_ok; eauto.
  Qed.
  Lemma sorted_rev l : StronglySorted (fun a b => skey_le rules a b = true) l -> StronglySorted (fun a b => skey_le rules b a = true) (rev l).
  Proof.
    induction 1 as [|x l S0 IH F]; [constructor|]. cbn [rev]. clear S0. rewrite Forall_forall in F.
    assert (G : forall k, StronglySorted (fun a b => skey_le rules b a = true) k -> (forall y, In y k -> skey_le rules x y = true) -> StronglySorted (fun a b => skey_le rules b a = true) (k ++ [x])).
    { induction 1 as [|y k S0 IHk Fk]; intros H; cbn [app]; [repeat constructor|]. constructor; [apply IHk; intros; apply H; now right|].
      apply Forall_app. split; [exact Fk|]. constructor; [apply H; now left|constructor]. }
    apply G; [exact IH|]. intros y Hy. apply F. now apply in_rev.
  Qed.
  Lemma skey_sorted l : StronglySorted (fun a b => skey_le rules a b = true) (sort_ids rules l).
  Proof. unfold sort_ids. apply sort_by_sorted; unfold skey_le; intros; lia. Qed.
  Lemma select_ok res d m : select_compressed ord rules t d0 m0 = Ok (res, d, m) ->
    part_ok U d m /\ (forall x y, In x U -> In y U -> (m x = m y <-> m0 x = m0 y)) /\ Permutation res (map fst d) /\
    StronglySorted (fun a b => skey_le rules a b = true) res /\ (mono -> kept (map fst d)).
  Proof.
    unfold select_compressed. destruct (rev (sort_ids rules (map fst d0))) as [|g todo] eqn:Er; [discriminate|].
    assert (P : Permutation (g :: todo) (map fst d0)) by (rewrite <- Er, <- Permutation_rev; apply sort_by_perm).
    assert (Rep : forall h, In h (g :: todo) -> In h U /\ m0 h = Some h).
    { intros h Hh. apply (Permutation_in _ P) in Hh. apply in_map_iff in Hh as ([h' l] & E & Hl). cbn [fst] in E. subst h'. assert (X := part_head _ _ _ _ _ P0 Hl).
      split; [eapply part_in; eauto|]. eapply (proj2 (proj2 (proj2 P0))); eauto. }
    assert (ND : NoDup (g :: todo)) by (eapply Permutation_NoDup; [apply Permutation_sym; exact P|eapply part_keys_nodup; exact P0]).
    assert (So : StronglySorted (fun a b => skey_le rules b a = true) (g :: todo)) by (rewrite <- Er; apply sorted_rev, skey_sorted).
    assert (Hi : inv (mkSel d0 m0 [g]) todo).
    { inversion ND as [|? ? N1 N2]; subst. inversion So as [|? ? S1 F1]; subst. rewrite Forall_forall in F1. destruct (Rep g (or_introl eq_refl)) as [Ug Eg].
      split; cbn [sgroups srep sassigned].
      - split; cbn [sgroups srep sassigned]; [exact P0|reflexivity|repeat constructor; intros []|]. intros a [<-|[]]. auto.
      - intros h Hh. destruct (Rep h (or_intror Hh)) as [Uh Eh]. split; [exact Uh|]. split; [exact Eh|]. intros (a & [<-|[]] & E). cbn [sassigned] in *. apply N1. assert (g = h) by congruence. now subst.
      - exact N2.
      - intros x Hx. destruct (part_find _ _ _ _ P0 Hx) as (h & l & Hl & _ & E). assert (Hh : In h (g :: todo)) by (apply (Permutation_in _ (Permutation_sym P)); apply in_map_iff; exists (h, l); auto).
        destruct (Rep h Hh) as [Uh Eh]. destruct Hh as [<-|Hh]; [left; exists g; split; [now left|congruence]|right; exists h; split; [exact Hh|congruence]].
      - exact S1.
      - intros x h Hx (a & [<-|[]] & E) Hh. rewrite <- (F1 h Hh). apply skey_cmp_same; [reflexivity|]. apply Sk; auto.
      - intros Hmo a b x y [<-|[]] [<-|[]] Hx Hy Ex Ey Hxy. exfalso. assert (X := Mono Hmo x y Hxy). rewrite (skey_cmp_same y x x x) in X; [unfold skey_le in X; lia| |reflexivity]. apply Sk; auto; congruence. }
    destruct (rfold (assign_group ord t) todo (mkSel d0 m0 [g])) as [s|e] eqn:E; [|discriminate]. cbn [rbind]. intros [= <- <- <-].
    assert (Hf := assign_all_ok todo _ s Hi E). assert (Hs := iv_sel _ _ Hf). split; [apply Hs|]. split; [apply Hs|].
    assert (Keys : Permutation (sassigned s) (map fst (sgroups s))).
    { apply NoDup_Permutation; [apply Hs|eapply part_keys_nodup; apply Hs|]. intros a. split.
      - intros Ha. destruct (so_rep _ Hs a Ha) as [Ua Ra]. destruct (part_rep _ _ _ _ (so_part _ Hs) Ua Ra) as (_ & _ & l & Hl & _). apply in_map_iff. exists (a, l). auto.
      - intros Ha. apply in_map_iff in Ha as ([a' l] & Ea & Hl). cbn [fst] in Ea. subst a'. assert (Ua : In a U) by (eapply part_in; [apply (so_part _ Hs)|exact Hl|eapply part_head; [apply (so_part _ Hs)|exact Hl]]).
        assert (Ra : srep s a = Some a) by (eapply (proj2 (proj2 (proj2 (so_part _ Hs)))); [exact Hl|eapply part_head; [apply (so_part _ Hs)|exact Hl]]).
        destruct (iv_all _ _ Hf a Ua) as [(b & Hb & Eb)|(h & [] & _)]. destruct (so_rep _ Hs b Hb) as [Ub Rb]. apply (so_cls _ Hs) in Eb; auto. assert (b = a) by congruence. now subst. }
    split; [|split].
    - unfold sort_ids. rewrite sort_by_perm, (ord_perm (sassigned s)). exact Keys.
    - apply skey_sorted.
    - intros Hmo. intros a b x y Ha Hb. apply (iv_kept _ _ Hf Hmo); now apply (Permutation_in _ (Permutation_sym Keys)).
  Qed.
End Sel.
