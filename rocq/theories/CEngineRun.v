(** The C BDD engine with its caches, its collector and clients that drop BDDs (C81). *)
From Verif Require Import SpecBdd BddHeap WildcardProofs MatchWcProofs BddProofs BddApi BddHeapProofs CEngine SpecGc CEngineProofs.
From Coq Require Import Lia ZifyBool ZifyNat.
Local Opaque NB.

Lemma NoDup_app_single {X} (l : list X) a : NoDup l -> ~ In a l -> NoDup (l ++ [a]).
Proof.
  intros H Ha. induction H as [|x l Hx H IH]; [repeat constructor; auto|]. cbn [app]. constructor.
  - rewrite in_app_iff. intros [Q|[Q|[]]]; [auto|]. apply Ha. now left.
  - apply IH. intros Q. apply Ha. now right.
Qed.

Section E.
  Context {A : Type} (A_eq_dec : forall x y : A, {x = y} + {x <> y}) (differs : A).
  Notation cell := (cell A). Notation mst := (mst A). Notation est := (est A). Notation bdd := (bdd A).
  Notation mk := (mk A_eq_dec).
  Notation cell_eqb := (cell_eqb A_eq_dec).
  Notation tidy := (tidy A_eq_dec).
  Notation pure := (pure A_eq_dec differs).
  Notation tstop := (tstop A_eq_dec differs).
  Context (alloc : nat -> list nat -> nat).
  Hypothesis alloc_free : forall t l, ~ In (alloc t l) l.
  Context (frames : nat).
  Notation get_node := (get_node A_eq_dec alloc frames).
  Notation check_term := (check_term A_eq_dec alloc).

  (** *** Trees *)
  Definition grows (f f' : nat -> option cell) : Prop := forall x c, f x = Some c -> f' x = Some c.
  Lemma grows_refl f : grows f f. Proof. intros x c H. exact H. Qed.
  Lemma grows_trans f g h : grows f g -> grows g h -> grows f h. Proof. intros H1 H2 x c H. auto. Qed.
  Lemma crep_grows f f' r b : grows f f' -> crep f r b -> crep f' r b.
  Proof. intros Hg H. induction H; [constructor|constructor; auto|econstructor; eauto]. Qed.
  Lemma crep_fun (f : nat -> option cell) r b : crep f r b -> forall b', crep f r b' -> b = b'.
  Proof.
    intros H. induction H as [|i a H|i n z o hn bz bo H Hz IHz Ho IHo]; intros b' H'; inversion H'; subst; try congruence.
    rewrite H in *. match goal with X : Some _ = Some _ |- _ => injection X as -> -> -> -> end. f_equal; auto.
  Qed.
  Lemma crep_inj m E : tidy m E -> forall b r r', crep (mem m) r b -> crep (mem m) r' b -> r = r'.
  Proof.
    intros Hh. induction b as [|a|n z IHz o IHo]; intros r r' H H'; inversion H; inversion H'; subst; try congruence.
    - f_equal. eapply (t_uniq _ _ _ Hh); eauto. apply cell_eqb_refl.
    - f_equal. assert (z0 = z1) as -> by eauto. assert (o0 = o1) as -> by eauto.
      eapply (t_uniq _ _ _ Hh); eauto. cbn [BddHeap.cell_eqb cell_num cell_zero cell_one].
      rewrite Z.eqb_refl. cbn [andb]. destruct (ref_eq_dec z1 z1), (ref_eq_dec o1 o1); first [reflexivity|congruence].
  Qed.
  Lemma crep_cell (f : nat -> option cell) i b : crep f (Some i) b -> b <> BNone /\
    exists c, f i = Some c /\ cell_num c = tnum b /\ crep f (cell_zero c) (tzero b) /\ crep f (cell_one c) (tone b).
  Proof.
    intros H. inversion H; subst; (split; [discriminate|]).
    - exists (CTerm a). repeat split; auto; constructor.
    - exists (CNode n z o hn). repeat split; auto.
  Qed.
  Lemma crep_live (m : mst) r b : crep (mem m) r b -> live m r.
  Proof. intros H. inversion H; subst; cbn [live]; [auto|congruence|congruence]. Qed.
  Lemma crep_hn m E : tidy m E -> forall b r, crep (mem m) r b -> none_below (mem m) r = has_none b.
  Proof.
    intros Hh. induction b as [|a|n z IHz o IHo]; intros r H; inversion H as [|i a' Ei|i n' zr or hn bz bo Ei Hz Ho]; subst; cbn [none_below has_none]; auto.
    - now rewrite Ei.
    - rewrite Ei. cbn [cell_hn]. destruct (t_node _ _ _ Hh _ _ _ _ _ Ei) as [_ [_ [_ [_ ->]]]]. erewrite IHz, IHo; eauto.
  Qed.
  Lemma crep_wf m E : tidy m E -> forall b r lo, crep (mem m) r b -> (b = BNone \/ lo <= tnum b) -> bdd_wf lo b.
  Proof.
    intros Hh. induction b as [|a|n z IHz o IHo]; intros r lo H Hlo; cbn [bdd_wf]; auto.
    inversion H as [| |i n' zr or hn bz bo Hc Hz Ho]; subst.
    destruct (t_node _ _ _ Hh _ _ _ _ _ Hc) as [Hn [Hne [Cz [Co _]]]].
    assert (Hch : forall r' b', crep (mem m) r' b' -> below (mem m) n r' -> b' = BNone \/ n + 1 <= tnum b').
    { intros r' b' Hr Hok. destruct r' as [j|]; [|inversion Hr; auto]. right.
      destruct Hok as [c [Ec Lt]]. apply crep_cell in Hr as [_ [c' [Ec' [En _]]]]. rewrite Ec in Ec'. injection Ec' as <-. lia. }
    split; [destruct Hlo as [X|Hlo]; [discriminate|cbn in Hlo; lia]|].
    split; [intros ->; apply Hne; eapply crep_inj; eauto|]. split; eauto.
  Qed.
  Lemma crep_wf0 m E b r : tidy m E -> crep (mem m) r b -> bdd_wf 0 b.
  Proof.
    intros H Hr. eapply crep_wf; eauto. destruct b as [|a|n z o]; [now left|right; cbn [tnum]; unfold TERM_NUM; lia|right].
    inversion Hr as [| |i n' zr or hn bz bo Hc Hz Ho]; subst. destruct (t_node _ _ _ H _ _ _ _ _ Hc) as [Hn _]. cbn [tnum]. lia.
  Qed.

  (** *** New objects *)
  Definition fits (m : mst) (c : cell) : Prop :=
    match c with
    | CTerm _ => True
    | CNode n z o hn => 0 <= n < NB /\ z <> o /\ below (mem m) n z /\ below (mem m) n o /\ hn = (none_below (mem m) z || none_below (mem m) o)
    end.
  Lemma below_live (m : mst) n r : below (mem m) n r -> live m r.
  Proof. destruct r as [j|]; cbn [below live]; [|auto]. intros [c [Hc _]]. congruence. Qed.

  Lemma kids_upd (f : nat -> option cell) l a v : ~ In a l -> kids (upd f a v) l = kids f l.
  Proof.
    intros H. unfold kids. induction l as [|x l IH]; [reflexivity|]. cbn [flat_map]. rewrite upd_other by (intros ->; apply H; now left).
    f_equal. apply IH. intros Q. apply H. now right.
  Qed.
  Lemma add_object m E c m' own :
    let a := alloc (clock m) (tbl m) in
    tidy m E -> fits m c -> (forall x d, mem m x = Some d -> cell_eqb c d = false) ->
    own = [] \/ own = [Some a] ->
    mem m' = upd (mem m) a (Some c) -> tbl m' = tbl m ++ [a] -> cnt m' a = 2 + occ a own ->
    (forall y, y <> a -> cnt m' y = cnt m y + occ y [cell_zero c; cell_one c]) ->
    tidy m' (own ++ E) /\ grows (mem m) (mem m').
  Proof.
    intros a H Hc Hu Hown M B C0 C1.
    assert (Ha : ~ In a (tbl m)) by apply alloc_free.
    assert (Na : mem m a = None) by (destruct (mem m a) eqn:X; [destruct Ha; apply (t_live _ _ _ H); congruence|reflexivity]).
    assert (Hg : grows (mem m) (mem m')).
    { intros x d Hx. rewrite M, upd_other; [auto|congruence]. }
    assert (Bl : forall n r, below (mem m) n r -> below (mem m') n r).
    { intros n r Hb. destruct r as [j|]; [|auto]. destruct Hb as [d [Hd L]]. exists d. split; [now apply Hg|auto]. }
    assert (Nb : forall n r, below (mem m) n r -> none_below (mem m') r = none_below (mem m) r).
    { intros n r Hb. destruct r as [j|]; [|auto]. destruct Hb as [d [Hd L]]. cbn [none_below]. now rewrite Hd, (Hg _ _ Hd). }
    assert (Kd : forall r, r = cell_zero c \/ r = cell_one c -> live m r).
    { destruct c as [t|n z o hn]; cbn [cell_zero cell_one]; intros r [->| ->]; cbn [live]; auto; destruct Hc as [_ [_ [Bz [Bo _]]]]; eapply below_live; eauto. }
    assert (Ka : occ a [cell_zero c; cell_one c] = 0).
    { pose proof (occ_ge a [cell_zero c; cell_one c]). destruct (Z.eq_dec (occ a [cell_zero c; cell_one c]) 0) as [e|e]; [auto|].
      assert (Q : In (Some a) [cell_zero c; cell_one c]) by (apply occ_pos; lia).
      destruct Q as [Q|[Q|[]]]; [specialize (Kd _ (or_introl eq_refl))|specialize (Kd _ (or_intror eq_refl))]; rewrite Q in Kd; cbn [live] in Kd; congruence. }
    assert (Kt : occ a (kids (mem m) (tbl m)) = 0 /\ occ a E = 0).
    { split.
      - pose proof (occ_ge a (kids (mem m) (tbl m))). destruct (Z.eq_dec (occ a (kids (mem m) (tbl m))) 0) as [e|e]; [auto|].
        assert (Q : In (Some a) (kids (mem m) (tbl m))) by (apply occ_pos; lia). unfold kids in Q. apply in_flat_map in Q as [y [Hy Q]].
        destruct (mem m y) as [d|] eqn:Ey; [|destruct Q]. assert (L : live m (Some a)).
        { eapply (kid_live A_eq_dec m E y d); eauto. destruct Q as [Q|[Q|[]]]; auto. }
        cbn [live] in L. congruence.
      - pose proof (occ_ge a E). destruct (Z.eq_dec (occ a E) 0) as [e|e]; [auto|]. assert (Q : In (Some a) E) by (apply occ_pos; lia).
        apply (t_held _ _ _ H) in Q. congruence. }
    assert (KK : forall y, occ y (kids (mem m') (tbl m')) = occ y (kids (mem m) (tbl m)) + occ y [cell_zero c; cell_one c]).
    { intros y. rewrite M, B. unfold kids at 1. rewrite flat_map_app. fold (kids (upd (mem m) a (Some c)) (tbl m)). rewrite kids_upd by auto.
      cbn [flat_map]. rewrite upd_same, app_nil_r. apply occ_app. }
    split; [|exact Hg]. constructor.
    - rewrite B. apply NoDup_app_single; [apply (t_nodup _ _ _ H)|exact Ha].
    - intros x. rewrite B, in_app_iff, M. destruct (Nat.eq_dec x a) as [->|Hne]; [rewrite upd_same|rewrite upd_other by auto; rewrite (t_live _ _ _ H x)].
      + split; [congruence|]. intros _. right. now left.
      + split; [intros [?|[e|[]]]; [auto|congruence]|auto].
    - intros x n z o hn Hx. rewrite M in Hx. destruct (Nat.eq_dec x a) as [->|Hne].
      + rewrite upd_same in Hx. injection Hx as ->. destruct Hc as [Hn [Hzo [Bz [Bo ->]]]]. split; [auto|]. split; [auto|]. split; [eauto|]. split; [eauto|].
        now rewrite (Nb _ _ Bz), (Nb _ _ Bo).
      + rewrite upd_other in Hx by auto. destruct (t_node _ _ _ H _ _ _ _ _ Hx) as [Hn [Hzo [Bz [Bo ->]]]]. split; [auto|]. split; [auto|]. split; [eauto|]. split; [eauto|].
        now rewrite (Nb _ _ Bz), (Nb _ _ Bo).
    - assert (Sym : forall x d, mem m x = Some d -> cell_eqb d c = false).
      { intros x d Hx. destruct (cell_eqb d c) eqn:Q; [|reflexivity]. pose proof (Hu x d Hx) as U.
        pose proof NB_TERM as HT. destruct d as [t|n z o hn].
        - apply cell_eqb_term in Q. subst c. now rewrite (cell_eqb_refl A_eq_dec) in U.
        - destruct (t_node _ _ _ H _ _ _ _ _ Hx) as [Hn _]. apply cell_eqb_node in Q as [hn' ->]; [|lia].
          cbn [BddHeap.cell_eqb cell_num cell_zero cell_one] in U. rewrite Z.eqb_refl in U. cbn [andb] in U.
          destruct (ref_eq_dec z z); [|congruence]. destruct (ref_eq_dec o o); [discriminate|congruence]. }
      intros x y d e Hx Hy Hde. rewrite M in Hx, Hy. destruct (Nat.eq_dec x a) as [->|Hxa], (Nat.eq_dec y a) as [->|Hya]; auto.
      + rewrite upd_same in Hx. rewrite upd_other in Hy by auto. injection Hx as <-. rewrite (Hu _ _ Hy) in Hde. discriminate.
      + rewrite upd_same in Hy. rewrite upd_other in Hx by auto. injection Hy as <-. rewrite (Sym _ _ Hx) in Hde. discriminate.
      + rewrite upd_other in Hx, Hy by auto. eapply (t_uniq _ _ _ H); eauto.
    - intros x Hx. rewrite M. destruct (Nat.eq_dec x a) as [->|Hne]; [rewrite upd_same; discriminate|]. rewrite upd_other by auto.
      apply in_app_or in Hx as [Hx|Hx]; [|now apply (t_held _ _ _ H)]. destruct Hown as [->| ->]; [destruct Hx|]. destruct Hx as [Hx|[]]. congruence.
    - intros x Hx. rewrite occ_app, KK, occ_app. destruct (Nat.eq_dec x a) as [->|Hne].
      + rewrite C0, Ka. destruct Kt as [-> ->]. lia.
      + rewrite M, upd_other in Hx by auto. rewrite C1 by auto. rewrite (t_cnt _ _ _ H x Hx), occ_app.
        assert (occ x own = 0) by (destruct Hown as [->| ->]; [apply occ_nil|now apply occ_other]). lia.
  Qed.

  Lemma incref_raw (m : mst) r : live m r -> exists m', incref r m = Fine m' /\ mem m' = mem m /\ tbl m' = tbl m /\ clock m' = clock m /\
    forall y, cnt m' y = cnt m y + occ y [r].
  Proof.
    intros Hr. destruct r as [x|]; cbn [incref live] in *.
    - destruct (mem m x) as [c|] eqn:Ex; [|congruence]. rewrite (load_ok _ _ _ Ex). cbn [cbind]. eexists. split; [reflexivity|]. cbn [mem tbl clock cnt].
      do 3 (split; [reflexivity|]). intros y. destruct (Nat.eq_dec y x) as [->|Hne]; [rewrite upd_same, occ_same; lia|rewrite upd_other, occ_other by auto; lia].
    - exists m. do 4 (split; [reflexivity|]). intros y. rewrite occ_none. lia.
  Qed.
  Lemma load_hn_ok (m : mst) r : live m r -> load_hn m r = Fine (none_below (mem m) r).
  Proof.
    destruct r as [x|]; cbn [load_hn live none_below]; [|auto]. intros H. destruct (mem m x) as [c|] eqn:Ex; [|congruence].
    rewrite (load_ok _ _ _ Ex). reflexivity.
  Qed.

  Lemma crep_below (m : mst) n r b : crep (mem m) r b -> bdd_wf (n + 1) b -> 0 <= n < NB -> below (mem m) n r.
  Proof.
    intros H W Hn. destruct r as [i|]; [|exact Logic.I]. destruct (crep_cell _ _ _ H) as [Hne [c [Ec [Nc _]]]]. exists c. split; [auto|]. rewrite Nc.
    pose proof NB_TERM as HT. destruct b as [|t|k z o]; [congruence| |]; cbn [tnum bdd_wf] in *; lia.
  Qed.

  Lemma get_node_ok n z o bz bo m E : tidy m E -> crep (mem m) z bz -> crep (mem m) o bo ->
    bz = bo \/ 0 <= n < NB /\ bdd_wf (n + 1) bz /\ bdd_wf (n + 1) bo ->
    exists r m', get_node n z o m = Fine (r, m') /\ tidy m' E /\ grows (mem m) (mem m') /\ crep (mem m') r (mk n bz bo).
  Proof.
    intros H Hz Ho Hw. unfold CEngine.get_node, Bdd.mk. destruct (ref_eq_dec z o) as [->|Hne].
    - exists o, m. pose proof (crep_fun _ _ _ Hz _ Ho) as ->. destruct bdd_eq_dec; [|congruence]. split; [auto|]. split; [auto|]. split; [apply grows_refl|auto].
    - assert (Hb : bz <> bo) by (intros ->; apply Hne; eapply crep_inj; eauto). destruct bdd_eq_dec; [congruence|].
      destruct Hw as [|[Hn [Wz Wo]]]; [congruence|]. pose proof NB_TERM as HT.
      destruct (find_addr A_eq_dec m (CNode n z o false) (tbl m)) as [x|] eqn:Ef.
      + apply find_addr_some in Ef as [_ [d [Ex Ed]]]. apply cell_eqb_node in Ed as [hn ->]; [|lia].
        exists (Some x), m. split; [auto|]. split; [auto|]. split; [apply grows_refl|]. econstructor; eauto.
      + assert (Bz : below (mem m) n z) by (eapply crep_below; eauto). assert (Bo : below (mem m) n o) by (eapply crep_below; eauto).
        rewrite (load_hn_ok m z), (load_hn_ok m o) by (eapply below_live; eauto). cbn [cbind new_object].
        set (a := alloc (clock m) (tbl m)). set (hn := none_below (mem m) z || none_below (mem m) o).
        set (c := CNode n z o hn).
        assert (Ha : ~ In a (tbl m)) by apply alloc_free.
        assert (Na : mem m a = None) by (destruct (mem m a) eqn:X; [destruct Ha; apply (t_live _ _ _ H); congruence|reflexivity]).
        set (m1 := mkm (upd (mem m) a (Some c)) (upd (cnt m) a 1) (tbl m) (S (clock m))).
        assert (L1 : forall r, live m r -> live m1 r /\ occ a [r] = 0).
        { intros r Hr. destruct r as [x|]; [|split; [exact Logic.I|apply occ_none]]. cbn [live m1 mem] in *.
          assert (x <> a) by congruence. rewrite upd_other by auto. split; [auto|apply occ_other; auto]. }
        destruct (L1 z (below_live _ _ _ Bz)) as [Lz Oz]. destruct (L1 o (below_live _ _ _ Bo)) as [Lo Oo].
        destruct (incref_raw m1 z Lz) as [m2 [-> [M2 [B2 [K2 C2]]]]]. cbn [cbind].
        destruct (incref_raw m2 o) as [m3 [-> [M3 [B3 [K3 C3]]]]]. { destruct o; cbn [live] in *; [now rewrite M2|auto]. }
        cbn [cbind]. set (m4 := set_item a m3).
        assert (C4 : cnt m4 a = 3). { cbn [m4 set_item cnt]. rewrite upd_same, C3, C2, Oz, Oo. cbn [m1 cnt]. rewrite upd_same. reflexivity. }
        destruct (decref_shared frames m4 (Some a)) as [m5 [-> [M5 [B5 [K5 C5]]]]].
        { split; [|lia]. cbn [m4 set_item mem]. rewrite M3, M2. cbn [m1 mem]. rewrite upd_same. discriminate. }
        cbn [cbind]. exists (Some a), m5. split; [reflexivity|].
        destruct (add_object m E c m5 []) as [T G]; auto.
        * cbn [fits c]. repeat split; auto; lia.
        * intros x d Hx. assert (Hin : In x (tbl m)) by (apply (t_live _ _ _ H); congruence).
          pose proof (find_addr_none A_eq_dec _ _ _ Ef x d Hin Hx) as Q. exact Q.
        * rewrite M5. cbn [m4 set_item mem]. rewrite M3, M2. reflexivity.
        * rewrite B5. cbn [m4 set_item tbl]. rewrite B3, B2. reflexivity.
        * fold a. rewrite C5, C4, occ_same, occ_nil. lia.
        * fold a. intros y Hy. rewrite C5, occ_other by auto. cbn [m4 set_item cnt]. rewrite upd_other, C3, C2 by auto. cbn [m1 cnt]. rewrite upd_other by auto.
          cbn [c cell_zero cell_one]. pose proof (occ_cons y z [o]) as Q. unfold ref in *. lia.
        * cbn [app] in T. split; [exact T|]. split; [exact G|]. econstructor; [|eapply crep_grows; eauto|eapply crep_grows; eauto].
          rewrite M5. cbn [m4 set_item mem]. rewrite M3, M2. cbn [m1 mem]. rewrite upd_same. reflexivity.
  Qed.

  Lemma check_term_ok act m E : tidy m E -> exists t m', check_term act m = Fine (t, m') /\ tidy m' (Some t :: E) /\
    grows (mem m) (mem m') /\ mem m' t = Some (CTerm act).
  Proof.
    intros H. unfold CEngine.check_term. destruct (find_addr A_eq_dec m (CTerm act) (tbl m)) as [x|] eqn:Ef.
    - apply find_addr_some in Ef as [_ [d [Ex Ed]]]. apply cell_eqb_term in Ed. subst d.
      destruct (incref_ok A_eq_dec m E (Some x) H) as [m' [-> [T [M _]]]]. { cbn [live]. congruence. }
      cbn [cbind]. exists x, m'. rewrite M. split; [auto|]. split; [auto|]. split; [apply grows_refl|auto].
    - cbn [new_object]. set (a := alloc (clock m) (tbl m)). eexists a, _. split; [reflexivity|].
      assert (T : tidy (set_item a (mkm (upd (mem m) a (Some (CTerm act))) (upd (cnt m) a 1) (tbl m) (S (clock m)))) ([Some a] ++ E) /\
                  grows (mem m) (upd (mem m) a (Some (CTerm act)))).
      { apply (add_object m E (CTerm act) (set_item a (mkm (upd (mem m) a (Some (CTerm act))) (upd (cnt m) a 1) (tbl m) (S (clock m)))) [Some a]); auto.
        - exact Logic.I.
        - intros x d Hx. assert (Hin : In x (tbl m)) by (apply (t_live _ _ _ H); congruence). exact (find_addr_none A_eq_dec _ _ _ Ef x d Hin Hx).
        - fold a. cbn [set_item cnt]. rewrite !upd_same, occ_same. reflexivity.
        - fold a. intros y Hy. cbn [set_item cnt]. rewrite !upd_other by auto. cbn [cell_zero cell_one]. change (occ y [None; None]) with 0. lia. }
      destruct T as [T G]. split; [exact T|]. split; [exact G|]. cbn [set_item mem]. apply upd_same.
  Qed.

  (** *** States *)
  Context (okeep : nat -> okey -> bool) (rkeep : nat -> rkey -> bool) (right_first : bool) (SHIFT : Z).
  Notation perm := (perm alloc).
  Definition roots (s : est) : list ref := holders perm s.
  Record eok (s : est) (pend : list ref) : Prop := {
    e_tidy : tidy (ms s) (roots s ++ pend);
    e_dif : mem (ms s) (alloc 0%nat []) = Some (CTerm differs);
    e_oc : forall op a b r, In ((op, a, b), r) (oc s) ->
      exists ta tb, crep (mem (ms s)) a ta /\ crep (mem (ms s)) b tb /\ crep (mem (ms s)) r (pure op ta tb);
    e_rc : forall wc t r, In ((wc, t), r) (rc s) ->
      wc <> 0 /\ exists act, mem (ms s) t = Some (CTerm act) /\ crep (mem (ms s)) r (c_wc_to_BDD A_eq_dec SHIFT wc act) }.
  Definition kept (s s' : est) : Prop := grows (mem (ms s)) (mem (ms s')) /\ slots s' = slots s /\ thr s' = thr s.
  Lemma kept_refl s : kept s s. Proof. split; [apply grows_refl|auto]. Qed.
  Lemma kept_trans s t u : kept s t -> kept t u -> kept s u.
  Proof. intros [G1 [S1 T1]] [G2 [S2 T2]]. split; [eapply grows_trans; eauto|]. split; congruence. Qed.

  Lemma eok_ms s m pend pend' : eok s pend -> grows (mem (ms s)) (mem m) -> tidy m (roots s ++ pend') -> eok (with_ms s m) pend'.
  Proof.
    intros [H1 H2 H3 H4] G T. constructor; cbn [with_ms ms oc rc].
    - exact T.
    - now apply G.
    - intros op a b r Hin. destruct (H3 _ _ _ _ Hin) as [ta [tb [R1 [R2 R3]]]]. exists ta, tb. split; [|split]; eapply crep_grows; eauto.
    - intros wc t r Hin. destruct (H4 _ _ _ Hin) as [Hw [act [R1 R2]]]. split; [auto|]. exists act. split; [now apply G|eapply crep_grows; eauto].
  Qed.
  Lemma eok_perm s p p' : eok s p -> (forall x, occ x p = occ x p') -> eok s p'.
  Proof. intros [H1 H2 H3 H4] Hp. constructor; auto. eapply tidy_occ; [exact H1|]. intros x. rewrite !occ_app, Hp. reflexivity. Qed.

  Lemma tidy_swap m R l p : tidy m (l ++ R ++ p) -> tidy m (R ++ l ++ p).
  Proof. intros H. eapply tidy_occ; [exact H|]. intros x. rewrite !occ_app. lia. Qed.
  Lemma tidy_swap' m R l p : tidy m (R ++ l ++ p) -> tidy m (l ++ R ++ p).
  Proof. intros H. eapply tidy_occ; [exact H|]. intros x. rewrite !occ_app. lia. Qed.

  Lemma hold_ok s pend l : eok s pend -> Forall (live (ms s)) l ->
    exists m, on_ms (increfs l) s = Fine (with_ms s m) /\ eok (with_ms s m) (l ++ pend) /\ mem m = mem (ms s).
  Proof.
    intros H Hl. destruct (increfs_ok A_eq_dec l (ms s) (roots s ++ pend) (e_tidy _ _ H) Hl) as [m [Em [T [M _]]]].
    exists m. unfold on_ms. rewrite Em. cbn [cbind]. split; [auto|]. split; [|auto]. eapply eok_ms; eauto; [rewrite M; apply grows_refl|now apply tidy_swap].
  Qed.
  Lemma release_ok s pend l : eok s (l ++ pend) ->
    exists m, on_ms (decrefs frames l) s = Fine (with_ms s m) /\ eok (with_ms s m) pend /\ mem m = mem (ms s).
  Proof.
    intros H. destruct (decrefs_ok A_eq_dec frames l (ms s) (roots s ++ pend)) as [m [Em [T [M _]]]]. { apply tidy_swap', (e_tidy _ _ H). }
    exists m. unfold on_ms. rewrite Em. cbn [cbind]. split; [auto|]. split; [|auto]. eapply eok_ms; eauto. rewrite M. apply grows_refl.
  Qed.

  Lemma occ_part {X} (g : X -> list ref) p l x : occ x (flat_map g l) = occ x (flat_map g (filter p l)) + occ x (flat_map g (filter (fun e => negb (p e)) l)).
  Proof.
    induction l as [|e l IH]; [reflexivity|]. cbn [flat_map filter]. destruct (p e); cbn [negb flat_map]; rewrite !occ_app, IH; lia.
  Qed.

  Notation ocache_put := (ocache_put frames okeep).
  Notation rcache_put := (rcache_put frames rkeep).
  Lemma roots_split s x : occ x (roots s) = occ x perm + occ x (flat_map (fun o => match o with Some r => [r] | None => [] end) (slots s)) +
    occ x (flat_map oentry_refs (oc s)) + occ x (flat_map rentry_refs (rc s)).
  Proof.
    unfold roots, holders. rewrite !occ_app. assert (E : map snd (rc s) = flat_map rentry_refs (rc s)).
    { induction (rc s) as [|e l IH]; [reflexivity|]. cbn [map flat_map rentry_refs app]. now rewrite IH. }
    rewrite E. change (fun e : okey * ref => let '((_, a, b), r) := e in [a; b; r]) with oentry_refs. lia.
  Qed.

  Lemma ocache_put_ok op a b ta tb r s pend : eok s (a :: b :: pend) -> crep (mem (ms s)) a ta -> crep (mem (ms s)) b tb ->
    crep (mem (ms s)) r (pure op ta tb) -> exists s', ocache_put (op, a, b) r s = Fine s' /\ eok s' pend /\ kept s s' /\ mem (ms s') = mem (ms s).
  Proof.
    intros H Ha Hb Hr. unfold CEngine.ocache_put.
    destruct (incref_ok A_eq_dec (ms s) (roots s ++ a :: b :: pend) r (e_tidy _ _ H) (crep_live _ _ _ Hr)) as [m1 [-> [T1 [M1 _]]]]. cbn [cbind].
    set (old := filter (is_key okey_eq_dec (op, a, b)) (oc s)).
    set (l := ((op, a, b), r) :: filter (fun e => negb (is_key okey_eq_dec (op, a, b) e)) (oc s)).
    set (new := filter (fun e => okeep (time s) (fst e)) l).
    set (out := filter (fun e => negb (okeep (time s) (fst e))) l).
    set (s' := fun m : mst => mke m new (rc s) (slots s) (thr s) (S (time s))).
    destruct (decrefs_ok A_eq_dec frames (flat_map oentry_refs (old ++ out)) m1 (roots (s' m1) ++ pend)) as [m2 [Ed [T2 [M2 _]]]].
    { eapply tidy_occ; [exact T1|]. intros x. rewrite (occ_cons x r), !occ_app, (occ_cons x a), (occ_cons x b), !roots_split, flat_map_app, occ_app.
      cbn [s' slots oc rc].
      pose proof (occ_part oentry_refs (is_key okey_eq_dec (op, a, b)) (oc s) x) as P1. fold old in P1.
      assert (P2 : occ x (flat_map oentry_refs l) = occ x (flat_map oentry_refs new) + occ x (flat_map oentry_refs out)) by exact (occ_part oentry_refs (fun e => okeep (time s) (fst e)) l x).
      assert (P3 : occ x (flat_map oentry_refs l) = occ x [a] + occ x [b] + occ x [r] + occ x (flat_map oentry_refs (filter (fun e => negb (is_key okey_eq_dec (op, a, b) e)) (oc s)))).
      { unfold l. cbn [flat_map oentry_refs]. rewrite occ_app, (occ_cons x a), (occ_cons x b). lia. }
      unfold okey, rkey, ref in *. lia. }
    match goal with |- context [decrefs frames ?L m1] => replace (decrefs frames L m1) with (Fine m2) by (symmetry; exact Ed) end.
    cbn [cbind]. exists (s' m2). split; [reflexivity|].
    assert (M : mem m2 = mem (ms s)) by congruence.
    split; [|split; [split; [cbn [s' ms]; rewrite M; apply grows_refl|auto]|exact M]].
    destruct H as [H1 H2 H3 H4]. constructor; cbn [s' ms oc rc]; rewrite ?M; auto.
    intros op' a' b' r' Hin. unfold new in Hin. apply filter_In in Hin as [Hin _]. destruct Hin as [[= <- <- <- <-]|Hin]; [eauto|].
    apply filter_In in Hin as [Hin _]. eauto.
  Qed.

  Lemma rcache_put_ok wc t act r s pend : eok s pend -> wc <> 0 -> mem (ms s) t = Some (CTerm act) ->
    crep (mem (ms s)) r (c_wc_to_BDD A_eq_dec SHIFT wc act) -> exists s', rcache_put (wc, t) r s = Fine s' /\ eok s' pend /\ kept s s' /\ mem (ms s') = mem (ms s).
  Proof.
    intros H Hw Ht Hr. unfold CEngine.rcache_put.
    destruct (incref_ok A_eq_dec (ms s) (roots s ++ pend) r (e_tidy _ _ H) (crep_live _ _ _ Hr)) as [m1 [-> [T1 [M1 _]]]]. cbn [cbind].
    set (old := filter (is_key rkey_eq_dec (wc, t)) (rc s)).
    set (l := ((wc, t), r) :: filter (fun e => negb (is_key rkey_eq_dec (wc, t) e)) (rc s)).
    set (new := filter (fun e => rkeep (time s) (fst e)) l).
    set (out := filter (fun e => negb (rkeep (time s) (fst e))) l).
    set (s' := fun m : mst => mke m (oc s) new (slots s) (thr s) (S (time s))).
    destruct (decrefs_ok A_eq_dec frames (flat_map rentry_refs (old ++ out)) m1 (roots (s' m1) ++ pend)) as [m2 [Ed [T2 [M2 _]]]].
    { eapply tidy_occ; [exact T1|]. intros x. rewrite (occ_cons x r), !occ_app, !roots_split, flat_map_app, occ_app.
      cbn [s' slots oc rc].
      pose proof (occ_part rentry_refs (is_key rkey_eq_dec (wc, t)) (rc s) x) as P1. fold old in P1.
      assert (P2 : occ x (flat_map rentry_refs l) = occ x (flat_map rentry_refs new) + occ x (flat_map rentry_refs out)) by exact (occ_part rentry_refs (fun e => rkeep (time s) (fst e)) l x).
      assert (P3 : occ x (flat_map rentry_refs l) = occ x [r] + occ x (flat_map rentry_refs (filter (fun e => negb (is_key rkey_eq_dec (wc, t) e)) (rc s)))).
      { exact (occ_app x [r] _). }
      unfold okey, rkey, ref in *. lia. }
    match goal with |- context [decrefs frames ?L m1] => replace (decrefs frames L m1) with (Fine m2) by (symmetry; exact Ed) end.
    cbn [cbind]. exists (s' m2). split; [reflexivity|].
    assert (M : mem m2 = mem (ms s)) by congruence.
    split; [|split; [split; [cbn [s' ms]; rewrite M; apply grows_refl|auto]|exact M]].
    destruct H as [H1 H2 H3 H4]. constructor; cbn [s' ms oc rc]; rewrite ?M; auto.
    intros wc' t' r' Hin. unfold new in Hin. apply filter_In in Hin as [Hin _]. destruct Hin as [[= <- <- <-]|Hin]; [eauto|].
    apply filter_In in Hin as [Hin _]. eauto.
  Qed.

  (** *** The operations *)
  Notation c_stop := (c_stop alloc).
  Lemma crep_term_iff m E i b c : tidy m E -> crep (mem m) (Some i) b -> mem m i = Some c -> is_term c = match b with BTerm _ => true | _ => false end.
  Proof.
    intros Hh H Ei. inversion H as [|j a E'|j n zr or hn bz bo E' Hz Ho]; subst; rewrite Ei in E'; injection E' as ->.
    - reflexivity.
    - unfold is_term. cbn [cell_num]. destruct (t_node _ _ _ Hh _ _ _ _ _ Ei) as [Hn _]. pose proof NB_TERM. lia.
  Qed.
  Lemma crep_eq m E r r' b b' : tidy m E -> crep (mem m) r b -> crep (mem m) r' b' -> (r = r' <-> b = b').
  Proof. intros Hh H H'. split; intros ->; [eapply crep_fun|eapply crep_inj]; eauto. Qed.

  Lemma c_stop_ok op a b ta tb s pend : eok s pend -> crep (mem (ms s)) a ta -> crep (mem (ms s)) b tb ->
    exists x, c_stop op a b (ms s) = Fine x /\
      match x, tstop op ta tb with Some r, Some t => crep (mem (ms s)) r t | None, None => True | _, _ => False end.
  Proof.
    intros H Ha Hb. pose proof (e_tidy _ _ H) as HT. set (m := ms s) in *.
    assert (Hd : crep (mem m) (differing alloc) (BTerm differs)) by (constructor; apply (e_dif _ _ H)).
    pose proof (crep_eq m _ a b ta tb HT Ha Hb) as Heq.
    destruct a as [i|], b as [j|].
    - destruct (crep_cell _ _ _ Ha) as [Na [c [Ec _]]]. destruct (crep_cell _ _ _ Hb) as [Nb [d [Ed _]]].
      pose proof (crep_term_iff m _ i ta c HT Ha Ec) as Ic. pose proof (crep_term_iff m _ j tb d HT Hb Ed) as Id.
      pose proof (crep_hn m _ HT _ _ Ha) as Hn. cbn [none_below] in Hn. rewrite Ec in Hn.
      destruct op; cbn [CEngine.c_stop BddHeapProofs.tstop]; rewrite ?(load_ok _ _ _ Ec), ?(load_ok _ _ _ Ed); cbn [cbind].
      + rewrite Hn. eexists. split; [reflexivity|]. destruct ta; [congruence| |]; destruct tb; try congruence; cbn [has_none]; try destruct (_ || _); auto.
      + destruct (ref_eq_dec (Some i) (Some j)) as [e|e]; destruct (bdd_eq_dec A_eq_dec ta tb) as [e'|e']; try tauto; cbn [cbind].
        * eexists. split; [reflexivity|constructor].
        * rewrite Ic, Id. eexists. split; [reflexivity|]. destruct ta; [congruence| |]; destruct tb; try congruence; cbn [andb]; auto.
      + destruct (ref_eq_dec (Some i) (Some j)) as [e|e]; destruct (bdd_eq_dec A_eq_dec ta tb) as [e'|e']; try tauto; cbn [cbind].
        * eexists. split; [reflexivity|constructor].
        * rewrite Ic, Id. eexists. split; [reflexivity|]. destruct ta; [congruence| |]; destruct tb; try congruence; cbn [andb]; auto.
      + eexists. split; [reflexivity|]. destruct (ref_eq_dec (Some i) (Some j)) as [e|e]; destruct ta; try congruence; destruct tb; try congruence;
          match goal with |- context [bdd_eq_dec ?q ?u ?v] => destruct (bdd_eq_dec q u v) end; try tauto.
    - inversion Hb; subst tb. destruct (crep_cell _ _ _ Ha) as [Na [c [Ec _]]]. pose proof (crep_term_iff m _ i ta c HT Ha Ec) as Ic.
      destruct op; cbn [CEngine.c_stop BddHeapProofs.tstop]; rewrite ?(load_ok _ _ _ Ec); cbn [cbind].
      + eexists. split; [reflexivity|]. destruct ta; congruence || auto.
      + destruct (ref_eq_dec (Some i) None) as [e|e]; [discriminate|]. destruct (bdd_eq_dec A_eq_dec ta BNone); [congruence|]. cbn [cbind]. rewrite Ic.
        eexists. split; [reflexivity|]. destruct ta; [congruence| |]; auto.
      + destruct (ref_eq_dec (Some i) None) as [e|e]; [discriminate|]. destruct (bdd_eq_dec A_eq_dec ta BNone); [congruence|].
        eexists. split; [reflexivity|]. destruct ta; [congruence| |]; auto.
      + eexists. split; [reflexivity|]. destruct ta; [congruence| |]; constructor.
    - inversion Ha; subst ta. destruct (crep_cell _ _ _ Hb) as [Nb _].
      destruct op; cbn [CEngine.c_stop BddHeapProofs.tstop].
      + eexists. split; [reflexivity|]. auto.
      + destruct (ref_eq_dec None (Some j)) as [e|e]; [discriminate|]. destruct (bdd_eq_dec A_eq_dec BNone tb); [congruence|].
        eexists. split; [reflexivity|]. auto.
      + destruct (ref_eq_dec None (Some j)) as [e|e]; [discriminate|]. destruct (bdd_eq_dec A_eq_dec BNone tb); [congruence|].
        eexists. split; [reflexivity|]. constructor.
      + eexists. split; [reflexivity|]. constructor.
    - inversion Ha; subst ta. inversion Hb; subst tb. destruct op; cbn [CEngine.c_stop BddHeapProofs.tstop]; try (eexists; split; [reflexivity|]; constructor).
  Qed.

  Ltac spl := do 9 eexists; split; [reflexivity|]; split; [reflexivity|]; split; [eassumption|]; split; [first [eassumption|constructor]|];
    split; [eassumption|]; split; [first [eassumption|constructor]|].
  Lemma c_split_ok op a b ta tb (m : mst) lo : crep (mem m) a ta -> crep (mem m) b tb ->
    bdd_wf lo ta -> bdd_wf lo tb -> tstop op ta tb = None ->
    exists n a0 b0 a1 b1 ta0 tb0 ta1 tb1,
      c_split a b m = Fine (n, (a0, b0), (a1, b1)) /\ tsplit ta tb = (n, (ta0, tb0), (ta1, tb1)) /\
      crep (mem m) a0 ta0 /\ crep (mem m) b0 tb0 /\ crep (mem m) a1 ta1 /\ crep (mem m) b1 tb1 /\
      ((ta0 = BNone /\ tb0 = BNone /\ ta1 = BNone /\ tb1 = BNone) \/
       (lo <= n < NB /\ bdd_wf (n + 1) ta0 /\ bdd_wf (n + 1) tb0 /\ bdd_wf (n + 1) ta1 /\ bdd_wf (n + 1) tb1)).
  Proof.
    intros Ha Hb Wa Wb Hstop. pose proof NB_TERM as HT.
    assert (Hna : ta <> BNone).
    { intros ->. destruct op; cbn [BddHeapProofs.tstop] in Hstop; try destruct bdd_eq_dec; discriminate. }
    destruct a as [i|]; [|inversion Ha; congruence].
    destruct (crep_cell _ _ _ Ha) as [_ [c [Ec [Nc [Zc Oc]]]]].
    destruct b as [j|].
    - destruct (crep_cell _ _ _ Hb) as [Hnb [d [Ed [Nd [Zd Od]]]]].
      unfold c_split. rewrite (load_ok _ _ _ Ec), (load_ok _ _ _ Ed). cbn [cbind]. rewrite Nc, Nd.
      unfold tsplit. destruct tb as [|y|nb bz bo]; [congruence| |]; destruct ta as [|x|na az ao]; try congruence; cbn [tnum tzero tone] in *.
      + rewrite Z.eqb_refl. spl. left. auto.
      + destruct Wa as [Hn [_ [W1 W2]]]. destruct (Z.eqb_spec na TERM_NUM) as [X|_]; [lia|]. destruct (Z.ltb_spec na TERM_NUM) as [_|X]; [|lia].
        spl. right. cbn [bdd_wf]. repeat split; auto; lia.
      + destruct Wb as [Hn [_ [W1 W2]]]. destruct (Z.eqb_spec TERM_NUM nb) as [X|_]; [lia|]. destruct (Z.ltb_spec TERM_NUM nb) as [X|_]; [lia|].
        destruct (Z.ltb_spec nb TERM_NUM) as [_|X]; [|lia]. spl. right. cbn [bdd_wf]. repeat split; auto; lia.
      + pose proof Wa as [Hn [Q1 [W1 W2]]]. pose proof Wb as [Hm [Q2 [V1 V2]]]. destruct (Z.eqb_spec na nb) as [->|X].
        * spl. right. repeat split; auto; lia.
        * destruct (Z.ltb_spec na nb) as [L|L].
          -- spl. right. assert (bdd_wf (na + 1) (BNode nb bz bo)) by (split; [lia|auto]). repeat split; auto; lia.
          -- destruct (Z.ltb_spec nb TERM_NUM) as [_|Y]; [|lia]. spl. right.
             assert (bdd_wf (nb + 1) (BNode na az ao)) by (split; [lia|auto]). repeat split; auto; lia.
    - inversion Hb; subst. unfold c_split. rewrite (load_ok _ _ _ Ec). cbn [cbind tsplit]. rewrite Nc.
      spl. destruct ta as [|x|na az ao]; [congruence| |]; cbn [tzero tone tnum].
      + left. auto.
      + destruct Wa as [Hn [_ [W1 W2]]]. right. cbn [bdd_wf]. repeat split; auto; lia.
  Qed.

  Notation c_op := (c_op A_eq_dec alloc frames okeep right_first).
  Lemma c_op_S f op a b s : c_op (S f) op a b s =
      cdo stop <- c_stop op a b (ms s);
      match stop with
      | Some r => Fine (r, s)
      | None =>
        cdo s <- (if cached_op op then on_ms (increfs [a; b]) s else Fine s);
        match (if cached_op op then assoc okey_eq_dec (op, a, b) (oc s) else None) with
        | Some r =>
          cdo s <- on_ms (increfs [r]) s;
          cdo s <- on_ms (decrefs frames [a; b; r]) s;
          Fine (r, s)
        | None =>
          cdo (num, (a0, b0), (a1, b1)) <- c_split a b (ms s);
          cdo (r0, r1, s) <-
            (if right_first then
               cdo (r1, s) <- c_op f op a1 b1 s; cdo (r0, s) <- c_op f op a0 b0 s; Fine (r0, r1, s)
             else
               cdo (r0, s) <- c_op f op a0 b0 s; cdo (r1, s) <- c_op f op a1 b1 s; Fine (r0, r1, s));
          cdo (r, m) <- get_node num r0 r1 (ms s);
          let s := with_ms s m in
          cdo s <- (if cached_op op then ocache_put (op, a, b) r s else Fine s);
          Fine (r, s)
        end
      end.
  Proof. reflexivity. Qed.

  Theorem c_op_ok op : forall f a b ta tb s lo pend, eok s pend -> crep (mem (ms s)) a ta -> crep (mem (ms s)) b tb ->
    bdd_wf lo ta -> bdd_wf lo tb -> (0 <= lo <= NB /\ (Z.to_nat (NB - lo) + 2 <= f)%nat \/ ta = BNone /\ tb = BNone /\ (1 <= f)%nat) ->
    exists r s', c_op f op a b s = Fine (r, s') /\ eok s' pend /\ kept s s' /\ crep (mem (ms s')) r (pure op ta tb).
  Proof.
    induction f as [|f IH]; intros a b ta tb s lo pend Hs Ha Hb Wa Wb Hf; [lia|].
    rewrite c_op_S. destruct (c_stop_ok op a b ta tb s pend) as [x [-> Hx]]; auto. cbn [cbind].
    rewrite (pure_eq A_eq_dec differs op ta tb lo) by auto. destruct x as [r|].
    - destruct (tstop op ta tb) as [t|]; [|contradiction]. exists r, s. split; [auto|]. split; [auto|]. split; [apply kept_refl|auto].
    - destruct (tstop op ta tb) as [t|] eqn:Estop; [contradiction|].
      assert (Epure := pure_eq A_eq_dec differs op ta tb lo Wa Wb). rewrite Estop in Epure.
      assert (Hf' : 0 <= lo <= NB /\ (Z.to_nat (NB - lo) + 2 <= S f)%nat).
      { destruct Hf as [Hf|[-> [-> _]]]; [auto|]. destruct op; cbn [BddHeapProofs.tstop] in Estop; try destruct bdd_eq_dec; congruence. }
      assert (Hold : exists s1, (if cached_op op then on_ms (increfs [a; b]) s else Fine s) = Fine s1 /\
                eok s1 ((if cached_op op then [a; b] else []) ++ pend) /\ mem (ms s1) = mem (ms s) /\ kept s s1).
      { destruct (cached_op op).
        - destruct (hold_ok s pend [a; b] Hs) as [m [E1 [H1 M1]]]. { repeat constructor; eapply crep_live; eauto. }
          exists (with_ms s m). split; [auto|]. split; [auto|]. split; [auto|]. split; [cbn [with_ms ms]; rewrite M1; apply grows_refl|auto].
        - exists s. split; [auto|]. split; [auto|]. split; [auto|apply kept_refl]. }
      destruct Hold as [s1 [-> [Hs1 [M1 K1]]]]. cbn [cbind]. rewrite <- M1 in Ha, Hb.
      destruct (if cached_op op then assoc okey_eq_dec (op, a, b) (oc s1) else None) as [r|] eqn:Eh.
      + destruct (cached_op op); [|discriminate]. apply assoc_in in Eh.
        destruct (e_oc _ _ Hs1 _ _ _ _ Eh) as [ta' [tb' [Ra [Rb R]]]].
        rewrite <- (crep_fun _ _ _ Ha _ Ra), <- (crep_fun _ _ _ Hb _ Rb) in R.
        destruct (hold_ok s1 _ [r] Hs1) as [m2 [-> [H2 M2]]]. { repeat constructor. eapply crep_live; eauto. }
        cbn [cbind]. destruct (release_ok (with_ms s1 m2) pend [a; b; r]) as [m3 [-> [H3 M3]]].
        { eapply eok_perm; [exact H2|]. intros y. rewrite !occ_app, (occ_cons y a [b; r]), (occ_cons y b [r]), (occ_cons y a [b]). lia. }
        cbn [cbind]. cbn [with_ms ms] in M3. eexists r, _. split; [reflexivity|]. split; [exact H3|].
        assert (MM : mem m3 = mem (ms s1)) by congruence.
        split; [|cbn [with_ms ms]; rewrite MM, <- Epure; exact R].
        destruct K1 as [G1 [S1 T1]]. split; [cbn [with_ms ms]; rewrite MM; exact G1|split; [exact S1|exact T1]].
      + clear Eh.
        destruct (c_split_ok op a b ta tb (ms s1) lo) as [n [a0 [b0 [a1 [b1 [ta0 [tb0 [ta1 [tb1 [-> [Et [Ra0 [Rb0 [Ra1 [Rb1 Hw]]]]]]]]]]]]]]]; auto.
        cbn [cbind]. rewrite Et in Epure |- *.
        assert (Hw0 : bdd_wf (n + 1) ta0 /\ bdd_wf (n + 1) tb0 /\ bdd_wf (n + 1) ta1 /\ bdd_wf (n + 1) tb1).
        { destruct Hw as [[-> [-> [-> ->]]]|[_ Hw]]; cbn [bdd_wf]; auto. }
        destruct Hw0 as [W1 [W2 [W3 W4]]].
        assert (F0 : 0 <= n + 1 <= NB /\ (Z.to_nat (NB - (n + 1)) + 2 <= f)%nat \/ ta0 = BNone /\ tb0 = BNone /\ (1 <= f)%nat).
        { destruct Hw as [[-> [-> _]]|[Hw _]]; [right; repeat split; lia|left; lia]. }
        assert (F1 : 0 <= n + 1 <= NB /\ (Z.to_nat (NB - (n + 1)) + 2 <= f)%nat \/ ta1 = BNone /\ tb1 = BNone /\ (1 <= f)%nat).
        { destruct Hw as [[_ [_ [-> ->]]]|[Hw _]]; [right; repeat split; lia|left; lia]. }
        set (p1 := (if cached_op op then [a; b] else []) ++ pend) in *.
        assert (Both : exists r0 r1 s3,
          (if right_first then
             cdo (r1, s) <- c_op f op a1 b1 s1; cdo (r0, s) <- c_op f op a0 b0 s; Fine (r0, r1, s)
           else
             cdo (r0, s) <- c_op f op a0 b0 s1; cdo (r1, s) <- c_op f op a1 b1 s; Fine (r0, r1, s)) = Fine (r0, r1, s3) /\
          eok s3 p1 /\ kept s1 s3 /\ crep (mem (ms s3)) r0 (pure op ta0 tb0) /\ crep (mem (ms s3)) r1 (pure op ta1 tb1)).
        { destruct right_first.
          - destruct (IH a1 b1 ta1 tb1 s1 (n + 1) p1) as [r1 [s2 [-> [H2 [K2 R1]]]]]; auto. cbn [cbind].
            destruct (IH a0 b0 ta0 tb0 s2 (n + 1) p1) as [r0 [s3 [-> [H3 [K3 R0]]]]]; auto; try (eapply crep_grows; [apply K2|auto]). cbn [cbind].
            exists r0, r1, s3. split; [auto|]. split; [auto|]. split; [eapply kept_trans; eauto|]. split; [auto|]. eapply crep_grows; [apply K3|auto].
          - destruct (IH a0 b0 ta0 tb0 s1 (n + 1) p1) as [r0 [s2 [-> [H2 [K2 R0]]]]]; auto. cbn [cbind].
            destruct (IH a1 b1 ta1 tb1 s2 (n + 1) p1) as [r1 [s3 [-> [H3 [K3 R1]]]]]; auto; try (eapply crep_grows; [apply K2|auto]). cbn [cbind].
            exists r0, r1, s3. split; [auto|]. split; [auto|]. split; [eapply kept_trans; eauto|]. split; [|auto]. eapply crep_grows; [apply K3|auto]. }
        destruct Both as [r0 [r1 [s3 [-> [H3 [K3 [R0 R1]]]]]]]. cbn [cbind].
        destruct (get_node_ok n r0 r1 (pure op ta0 tb0) (pure op ta1 tb1) (ms s3) (roots s3 ++ p1)) as [r [m4 [-> [T4 [G4 R4]]]]]; auto.
        { apply (e_tidy _ _ H3). }
        { destruct Hw as [[-> [-> [-> ->]]]|[Hw _]]; [left; auto|]. right. split; [lia|]. split; apply pure_wf; auto. }
        cbn [cbind]. cbv zeta. assert (H4 : eok (with_ms s3 m4) p1) by (eapply eok_ms; eauto).
        assert (K4 : kept s1 (with_ms s3 m4)). { eapply kept_trans; [exact K3|]. split; [exact G4|auto]. }
        unfold p1 in H4. destruct (cached_op op).
        * destruct (ocache_put_ok op a b ta tb r (with_ms s3 m4) pend H4) as [s5 [-> [H5 [K5 M5]]]].
          { eapply crep_grows; [apply K4|auto]. } { eapply crep_grows; [apply K4|auto]. } { cbn [with_ms ms]. now rewrite Epure. }
          cbn [cbind]. exists r, s5. split; [reflexivity|]. split; [exact H5|]. split; [eapply kept_trans; [exact K1|eapply kept_trans; eauto]|].
          rewrite M5. exact R4.
        * cbn [cbind]. eexists r, _. split; [reflexivity|]. split; [exact H4|]. split; [eapply kept_trans; eauto|]. exact R4.
  Qed.

  (** *** wc_to_BDD *)
  Fixpoint leaf_in (act : A) (b : bdd) : Prop :=
    match b with BNone => False | BTerm a => a = act | BNode _ z o => leaf_in act z \/ leaf_in act o end.
  Notation c_wc_step := (c_wc_step A_eq_dec alloc frames SHIFT).
  Notation c_wc := (c_wc A_eq_dec alloc frames rkeep SHIFT).
  Lemma c_prefix wc act k : Z.of_nat k <= NB ->
    let b := fold_left (c_wc_to_BDD_step A_eq_dec SHIFT wc) (seqZ k) (BTerm act) in b <> BNone /\ bdd_wf (NB - Z.of_nat k) b /\ leaf_in act b.
  Proof.
    induction k as [|k IH]; intros Hk; cbn zeta; [cbn; split; [discriminate|auto]|]. destruct IH as [Hb [Wb Lb]]; [lia|].
    rewrite seqZ_snoc, fold_left_app. cbn [fold_left]. set (b := fold_left _ (seqZ k) _) in *. unfold c_wc_to_BDD_step.
    assert (W' : bdd_wf (NB - Z.of_nat (S k)) b) by (eapply wf_mono; [|exact Wb]; lia).
    assert (W1 : bdd_wf (NB - 1 - Z.of_nat k + 1) b) by (replace (NB - 1 - Z.of_nat k + 1) with (NB - Z.of_nat k) by lia; exact Wb).
    unfold Bdd.mk. destruct (_ =? 1); [|destruct (_ =? 2)]; [| |auto].
    - destruct bdd_eq_dec; [congruence|]. split; [discriminate|]. split; [|left; auto]. cbn [bdd_wf]. repeat split; auto; lia.
    - destruct bdd_eq_dec; [congruence|]. split; [discriminate|]. split; [|right; auto]. cbn [bdd_wf]. repeat split; auto; lia.
  Qed.

  Lemma c_wc_steps_ok wc act t : forall k m E, Z.of_nat k <= NB -> tidy m E -> mem m t = Some (CTerm act) ->
    exists r m', cfold (c_wc_step wc) (Some t, m) (seqZ k) = Fine (r, m') /\ tidy m' E /\ grows (mem m) (mem m') /\
      crep (mem m') r (fold_left (c_wc_to_BDD_step A_eq_dec SHIFT wc) (seqZ k) (BTerm act)).
  Proof.
    induction k as [|k IH]; intros m E Hk H Ht.
    - exists (Some t), m. split; [reflexivity|]. split; [auto|]. split; [apply grows_refl|]. now constructor.
    - destruct (IH m E) as [r [m1 [E1 [T1 [G1 R1]]]]]; [lia|auto|auto|]. destruct (c_prefix wc act k) as [Hb [Wb _]]; [lia|].
      rewrite seqZ_snoc, cfold_app, E1, fold_left_app. cbn [cbind cfold fold_left]. set (b := fold_left _ (seqZ k) _) in *.
      assert (W1 : bdd_wf (NB - 1 - Z.of_nat k + 1) b) by (replace (NB - 1 - Z.of_nat k + 1) with (NB - Z.of_nat k) by lia; exact Wb).
      assert (Hn : 0 <= NB - 1 - Z.of_nat k < NB) by lia.
      unfold CEngine.c_wc_step, c_wc_to_BDD_step. destruct (_ =? 1); [|destruct (_ =? 2)].
      + destruct (get_node_ok (NB - 1 - Z.of_nat k) r None b BNone m1 E) as [r2 [m2 [-> [T2 [G2 R2]]]]]; auto; [constructor|right; cbn [bdd_wf]; auto|].
        cbn [cbind cfold]. exists r2, m2. split; [auto|]. split; [auto|]. split; [eapply grows_trans; eauto|auto].
      + destruct (get_node_ok (NB - 1 - Z.of_nat k) None r BNone b m1 E) as [r2 [m2 [-> [T2 [G2 R2]]]]]; auto; [constructor|right; cbn [bdd_wf]; auto|].
        cbn [cbind cfold]. exists r2, m2. split; [auto|]. split; [auto|]. split; [eapply grows_trans; eauto|auto].
      + cbn [cbind cfold]. exists r, m1. auto.
  Qed.

  Lemma eok_add_slot s r pend : eok s (r :: pend) -> eok (add_slot r s) pend.
  Proof.
    intros [H1 H2 H3 H4]. constructor; cbn [add_slot ms oc rc]; auto. eapply tidy_occ; [exact H1|]. intros x.
    rewrite !occ_app, (occ_cons x r), !roots_split. cbn [add_slot slots oc rc]. rewrite flat_map_app, occ_app. cbn [flat_map app]. lia.
  Qed.

  Lemma c_wc_ok wc act s : eok s [] -> exists s' r, c_wc wc act s = Fine s' /\ eok s' [] /\ grows (mem (ms s)) (mem (ms s')) /\
    slots s' = slots s ++ [Some r] /\ crep (mem (ms s')) r (c_wc_to_BDD A_eq_dec SHIFT wc act).
  Proof.
    intros H. unfold CEngine.c_wc, c_wc_to_BDD. destruct (Z.eqb_spec wc 0) as [->|Hne].
    - exists (add_slot None s), None. split; [reflexivity|]. split; [|split; [apply grows_refl|split; [reflexivity|constructor]]].
      apply eok_add_slot. eapply eok_perm; [exact H|]. reflexivity.
    - destruct (check_term_ok act (ms s) (roots s ++ []) (e_tidy _ _ H)) as [t [m1 [-> [T1 [G1 Ht]]]]]. cbn [cbind]. cbv zeta.
      assert (H1 : eok (with_ms s m1) [Some t]) by (eapply eok_ms; eauto; apply (tidy_swap m1 (roots s) [Some t] []); exact T1).
      assert (Build : exists s' r,
         (cdo (r, m) <- cfold (c_wc_step wc) (Some t, ms (with_ms s m1)) (seqZ (Z.to_nat NB));
          cdo s0 <- on_ms (increfs [r]) (with_ms (with_ms s m1) m);
          cdo s1 <- rcache_put (wc, t) r (add_slot r s0); on_ms (decrefs frames [Some t]) s1) = Fine s' /\ eok s' [] /\
          grows (mem (ms s)) (mem (ms s')) /\ slots s' = slots s ++ [Some r] /\
          crep (mem (ms s')) r (fold_left (c_wc_to_BDD_step A_eq_dec SHIFT wc) (seqZ (Z.to_nat NB)) (BTerm act))).
      { destruct (c_wc_steps_ok wc act t (Z.to_nat NB) (ms (with_ms s m1)) (roots s ++ [Some t])) as [r [m2 [-> [T2 [G2 R2]]]]]; [pose proof NB_pos; lia|apply (e_tidy _ _ H1)|exact Ht|].
        cbn [cbind]. cbn [with_ms ms] in G2.
        assert (H2 : eok (with_ms (with_ms s m1) m2) [Some t]) by (eapply eok_ms; eauto).
        destruct (hold_ok (with_ms (with_ms s m1) m2) [Some t] [r] H2) as [m3 [-> [H3 M3]]]. { constructor; [eapply crep_live; exact R2|constructor]. }
        cbn [cbind]. cbn [with_ms ms] in M3. set (s3 := with_ms (with_ms (with_ms s m1) m2) m3) in *.
        pose proof (eok_add_slot s3 r [Some t] H3) as H4.
        destruct (rcache_put_ok wc t act r (add_slot r s3) [Some t] H4 Hne) as [s5 [-> [H5 [[_ [S5 _]] M5]]]].
        { cbn [add_slot ms s3 with_ms]. rewrite M3. now apply G2. }
        { cbn [add_slot ms s3 with_ms]. rewrite M3. unfold c_wc_to_BDD. destruct (Z.eqb_spec wc 0); [congruence|exact R2]. }
        cbn [cbind]. destruct (release_ok s5 [] [Some t] H5) as [m6 [-> [H6 M6]]]. eexists _, r. split; [reflexivity|]. split; [exact H6|].
        assert (MM : mem m6 = mem m2). { rewrite M6, M5. cbn [add_slot ms s3 with_ms]. exact M3. }
        cbn [with_ms ms slots]. rewrite MM. split; [eapply grows_trans; eauto|]. split; [rewrite S5; reflexivity|exact R2]. }
      destruct (assoc rkey_eq_dec (wc, t) (rc (with_ms s m1))) as [[i|]|] eqn:Eh; [|exact Build|exact Build].
      clear Build. apply assoc_in in Eh. destruct (e_rc _ _ H1 _ _ _ Eh) as [_ [act' [Ht' R]]]. cbn [with_ms ms] in Ht', R. rewrite Ht in Ht'. injection Ht' as <-.
      destruct (hold_ok (with_ms s m1) [Some t] [Some i] H1) as [m2 [-> [H2 M2]]]. { constructor; [eapply crep_live; exact R|constructor]. }
      cbn [cbind]. destruct (release_ok (add_slot (Some i) (with_ms (with_ms s m1) m2)) [] [Some t]) as [m3 [-> [H3 M3]]]. { apply eok_add_slot. exact H2. }
      cbn [cbind]. eexists _, (Some i). split; [reflexivity|]. split; [exact H3|]. cbn [with_ms ms add_slot slots] in *.
      assert (MM : mem m3 = mem m1) by congruence. rewrite MM. split; [auto|]. split; [auto|].
      unfold c_wc_to_BDD in R. destruct (Z.eqb_spec wc 0); [congruence|exact R].
  Qed.

  (** *** The collector between operations *)
  Hypothesis frames_pos : (1 <= frames)%nat.
  Lemma crep_reached (f f' : nat -> option cell) R : (forall x, reached f R x -> f' x = f x) -> forall r b, crep f r b ->
    match r with Some x => reached f R x | None => True end -> crep f' r b.
  Proof.
    intros Hf r b H. induction H as [|x a Hx|x n z o hn bz bo Hx Hz IHz Ho IHo]; intros Hr.
    - constructor.
    - constructor. rewrite Hf; auto.
    - econstructor; [rewrite Hf; eauto| |].
      + apply IHz. destruct z as [y|]; [|exact Logic.I]. eapply reached_zero; eauto.
      + apply IHo. destruct o as [y|]; [|exact Logic.I]. eapply reached_one; eauto.
  Qed.
  Lemma leaf_reached (f : nat -> option cell) R act r b : crep f r b -> leaf_in act b -> match r with Some x => reached f R x | None => True end ->
    exists y, reached f R y /\ f y = Some (CTerm act).
  Proof.
    intros H. induction H as [|x a Hx|x n z o hn bz bo Hx Hz IHz Ho IHo]; cbn [leaf_in]; intros Hl Hr.
    - destruct Hl.
    - subst a. eauto.
    - destruct Hl as [Hl|Hl].
      + apply IHz; auto. destruct z as [y|]; [|exact Logic.I]. eapply reached_zero; eauto.
      + apply IHo; auto. destruct o as [y|]; [|exact Logic.I]. eapply reached_one; eauto.
  Qed.
  Lemma c_leaf wc act : wc <> 0 -> leaf_in act (c_wc_to_BDD A_eq_dec SHIFT wc act).
  Proof.
    intros Hw. unfold c_wc_to_BDD. destruct (Z.eqb_spec wc 0); [congruence|]. pose proof NB_pos. apply (c_prefix wc act (Z.to_nat NB)). lia.
  Qed.

  Lemma in_roots_oc s op a b r : In ((op, a, b), r) (oc s) -> In a (roots s) /\ In b (roots s) /\ In r (roots s).
  Proof.
    intros H. unfold roots, holders. assert (G : forall q, In q [a; b; r] -> In q (perm ++ flat_map (fun o => match o with Some r => [r] | None => [] end) (slots s)
        ++ flat_map (fun e : okey * ref => let '((_, a, b), r) := e in [a; b; r]) (oc s) ++ map snd (rc s))).
    { intros q Hq. do 2 (apply in_or_app; right). apply in_or_app. left. apply in_flat_map. exists ((op, a, b), r). auto. }
    split; [|split]; apply G; cbn [In]; auto.
  Qed.
  Lemma in_roots_rc s k r : In (k, r) (rc s) -> In r (roots s).
  Proof. intros H. unfold roots, holders. do 3 (apply in_or_app; right). apply in_map_iff. exists (k, r). auto. Qed.
  Lemma in_roots_slot s r : In (Some r) (slots s) -> In r (roots s).
  Proof. intros H. unfold roots, holders. apply in_or_app. right. apply in_or_app. left. apply in_flat_map. exists (Some r). split; [auto|now left]. Qed.

  Lemma gc_eok s pend : eok s pend -> exists m, on_ms (gc_node_cache A_eq_dec frames) s = Fine (with_ms s m) /\ eok (with_ms s m) pend /\
    forall r b, In r (roots s ++ pend) -> crep (mem (ms s)) r b -> crep (mem m) r b.
  Proof.
    intros H. pose proof H as [H1 H2 H3 H4]. destruct (gc_ok A_eq_dec frames frames_pos (ms s) (roots s ++ pend) H1) as [m [Eg [T [Keep _]]]].
    exists m. unfold on_ms. rewrite Eg. cbn [cbind]. split; [reflexivity|].
    assert (Hrep : forall r b, In r (roots s ++ pend) -> crep (mem (ms s)) r b -> crep (mem m) r b).
    { intros r b Hr Hb. eapply crep_reached; eauto. destruct r as [x|]; [|exact Logic.I]. now apply reached_root. }
    split; [|exact Hrep]. constructor; cbn [with_ms ms oc rc]; auto.
    - rewrite Keep; auto. apply reached_root. apply in_or_app. left. unfold roots, holders. apply in_or_app. left. now left.
    - intros op a b r Hin. destruct (H3 _ _ _ _ Hin) as [ta [tb [R1 [R2 R3]]]]. destruct (in_roots_oc _ _ _ _ _ Hin) as [I1 [I2 I3]].
      exists ta, tb. split; [|split]; apply Hrep; auto; apply in_or_app; auto.
    - intros wc t r Hin. destruct (H4 _ _ _ Hin) as [Hw [act [Ht R]]]. split; [auto|]. exists act. pose proof (in_roots_rc _ _ _ Hin) as Ir.
      split; [|apply Hrep; [apply in_or_app; auto|auto]].
      destruct (leaf_reached (mem (ms s)) (roots s ++ pend) act r _ R (c_leaf wc act Hw)) as [y [Ry Hy]].
      { destruct r as [x|]; [|exact Logic.I]. apply reached_root. apply in_or_app. auto. }
      assert (t = y) as ->. { eapply (t_uniq _ _ _ H1); eauto. apply cell_eqb_refl. }
      rewrite Keep; auto.
  Qed.

  (** *** Programs *)
  Context (SHIFT_pos : 0 < SHIFT) (SHIFT_even : SHIFT mod 2 = 0).
  Notation beval := (beval A_eq_dec differs).
  Definition slot_ok (f : nat -> option cell) (o : option ref) (e : bexpr A) : Prop :=
    bexpr_ok e /\ match o with None => True | Some r => exists b, beval e = Ok b /\ crep f r b end.

  Definition held_map (sl : list (option ref)) : list bool := map (fun o => match o with Some _ => true | None => false end) sl.

  Notation c_step := (c_step A_eq_dec alloc frames okeep rkeep right_first SHIFT).
  Notation c_run := (c_run A_eq_dec alloc frames okeep rkeep right_first SHIFT).

  Lemma slots_grow f f' sl es : grows f f' -> Forall2 (slot_ok f) sl es -> Forall2 (slot_ok f') sl es.
  Proof.
    intros G H. induction H as [|o e l l' [He Ho] H IH]; constructor; auto. split; [auto|]. destruct o as [r|]; [|auto].
    destruct Ho as [b [Eb Rb]]. exists b. split; [auto|eapply crep_grows; eauto].
  Qed.
  Lemma slots_keep f f' sl es : (forall r b, In (Some r) sl -> crep f r b -> crep f' r b) -> Forall2 (slot_ok f) sl es -> Forall2 (slot_ok f') sl es.
  Proof.
    intros G H. induction H as [|o e l l' [He Ho] H IH]; constructor; auto.
    - split; [auto|]. destruct o as [r|]; [|auto]. destruct Ho as [b [Eb Rb]]. exists b. split; [auto|]. apply G; [now left|auto].
    - apply IH. intros r b Hin. apply G. now right.
  Qed.
  Lemma slots_at f sl es : Forall2 (slot_ok f) sl es -> forall i, holds (held_map sl) i ->
    exists r, nth_error sl i = Some (Some r) /\ slot_ok f (Some r) (nth i es EEmpty).
  Proof.
    intros H. induction H as [|o e l l' Ho H IH]; intros i Hi; unfold holds in Hi; [destruct i; discriminate|].
    destruct i as [|i]; cbn [held_map map nth_error nth] in *.
    - destruct o as [r|]; [|discriminate]. eauto.
    - apply IH. exact Hi.
  Qed.

  Lemma c_binop_ok op i j s es : (Z.to_nat NB + 2 <= frames)%nat -> eok s [] -> Forall2 (slot_ok (mem (ms s))) (slots s) es ->
    holds (held_map (slots s)) i -> holds (held_map (slots s)) j ->
    exists s' r, c_step (XOp op i j) s = Fine s' /\ eok s' [] /\ slots s' = slots s ++ [Some r] /\
      Forall2 (slot_ok (mem (ms s'))) (slots s') (xexpr es (XOp op i j)).
  Proof.
    intros Hf H Hsl Hi Hj. cbn [CEngine.c_step xexpr]. unfold c_binop.
    destruct (slots_at _ _ _ Hsl i Hi) as [a [Ea [Oka [ta [Eta Ra]]]]]. destruct (slots_at _ _ _ Hsl j Hj) as [b [Eb [Okb [tb [Etb Rb]]]]].
    unfold get_slot. rewrite Ea, Eb. cbn [cbind].
    destruct (hold_ok s [] [a; b] H) as [m1 [-> [H1 M1]]]. { repeat constructor; eapply crep_live; eauto. }
    cbn [cbind]. set (s1 := with_ms s m1) in *.
    assert (Hc : exists s2, memory_cleanup A_eq_dec frames s1 = Fine s2 /\ eok s2 [a; b] /\ slots s2 = slots s /\
        Forall2 (slot_ok (mem (ms s2))) (slots s) es /\ crep (mem (ms s2)) a ta /\ crep (mem (ms s2)) b tb).
    { unfold memory_cleanup. destruct (_ && _).
      - destruct (gc_eok s1 [a; b] H1) as [m2 [-> [H2 Keep]]]. exists (with_ms s1 m2). split; [auto|]. split; [auto|]. split; [auto|]. cbn [with_ms ms].
        cbn [s1 with_ms ms] in Keep. rewrite M1 in Keep.
        split; [|split].
        + eapply slots_keep; [|exact Hsl]. intros r0 b0 Hin Hc. apply Keep; [|exact Hc]. apply in_or_app. left. apply (in_roots_slot s). exact Hin.
        + apply Keep; [|exact Ra]. apply in_or_app. right. now left.
        + apply Keep; [|exact Rb]. apply in_or_app. right. right. now left.
      - exists s1. split; [auto|]. split; [exact H1|]. split; [auto|]. cbn [s1 with_ms ms]. rewrite M1. auto. }
    destruct Hc as [s2 [-> [H2 [S2 [F2 [Ra2 Rb2]]]]]]. cbn [cbind].
    assert (Wa : bdd_wf 0 ta) by (eapply crep_wf0; [apply (e_tidy _ _ H2)|eauto]). assert (Wb : bdd_wf 0 tb) by (eapply crep_wf0; [apply (e_tidy _ _ H2)|eauto]).
    destruct (c_op_ok op frames a b ta tb s2 0 [a; b]) as [r [s3 [-> [H3 [[G3 [S3 _]] R3]]]]]; auto. { left. pose proof NB_pos. lia. }
    cbn [cbind]. destruct (hold_ok s3 [a; b] [r] H3) as [m4 [-> [H4 M4]]]. { repeat constructor. eapply crep_live; eauto. }
    cbn [cbind]. destruct (release_ok (add_slot r (with_ms s3 m4)) [] [a; b]) as [m5 [-> [H5 M5]]]. { apply eok_add_slot. exact H4. }
    eexists _, r. split; [reflexivity|]. split; [exact H5|]. cbn [with_ms add_slot ms slots] in *. rewrite S3, S2. split; [reflexivity|].
    assert (MM : mem m5 = mem (ms s3)) by congruence. rewrite MM. apply Forall2_app; [eapply slots_grow; [exact G3|exact F2]|]. constructor; [|constructor].
    assert (Ev : beval (eop op (nth i es EEmpty) (nth j es EEmpty)) = Ok (pure op ta tb))
      by (destruct op; cbn [eop BddApi.beval BddHeapProofs.pure]; rewrite Eta, Etb; reflexivity).
    split; [destruct op; split; auto|]. exists (pure op ta tb). auto.
  Qed.

  Lemma occ_drop (sl : list (option ref)) i r x : nth_error sl i = Some (Some r) ->
    let g := flat_map (fun o : option ref => match o with Some q => [q] | None => [] end) in
    occ x (g sl) = occ x [r] + occ x (g (firstn i sl ++ None :: skipn (S i) sl)).
  Proof.
    cbn zeta. revert i. induction sl as [|o sl IH]; intros i Hi; [destruct i; discriminate|]. destruct i as [|i].
    - cbn [nth_error] in Hi. injection Hi as ->. cbn [firstn skipn app flat_map]. now rewrite (occ_cons x r).
    - cbn [nth_error] in Hi. cbn [firstn]. change (skipn (S (S i)) (o :: sl)) with (skipn (S i) sl). cbn [app flat_map].
      rewrite !occ_app, (IH i Hi). lia.
  Qed.
  Lemma slots_drop f sl es i : Forall2 (slot_ok f) sl es -> (i < List.length sl)%nat -> Forall2 (slot_ok f) (firstn i sl ++ None :: skipn (S i) sl) es.
  Proof.
    intros H. revert i. induction H as [|o e l l' Ho H IH]; intros i Hi; [cbn in Hi; lia|]. destruct i as [|i].
    - cbn [firstn skipn app]. constructor; [|exact H]. destruct Ho. split; auto.
    - cbn [firstn]. change (skipn (S (S i)) (o :: l)) with (skipn (S i) l). cbn [app]. constructor; [auto|]. apply IH. cbn in Hi. lia.
  Qed.
  Lemma held_drop sl i : held_map (firstn i sl ++ None :: skipn (S i) sl) = firstn i (held_map sl) ++ false :: skipn (S i) (held_map sl).
  Proof. unfold held_map. rewrite map_app, firstn_map. cbn [map]. now rewrite skipn_map. Qed.

  Lemma c_step_ok c s es : (Z.to_nat NB + 2 <= frames)%nat -> eok s [] -> Forall2 (slot_ok (mem (ms s))) (slots s) es -> xok (held_map (slots s)) c ->
    exists s', c_step c s = Fine s' /\ eok s' [] /\ held_map (slots s') = xlive (held_map (slots s)) c /\
      Forall2 (slot_ok (mem (ms s'))) (slots s') (xexpr es c).
  Proof.
    intros Hf H Hsl Hc. destruct c as [|wc act|op i j|i| |n].
    - exists (add_slot None s). split; [reflexivity|]. split; [apply eok_add_slot; eapply eok_perm; [exact H|reflexivity]|].
      split; [unfold held_map; cbn [add_slot slots]; now rewrite map_app|]. cbn [xexpr add_slot ms slots]. apply Forall2_app; [auto|]. constructor; [|constructor].
      split; [exact Logic.I|]. exists BNone. split; [reflexivity|constructor].
    - cbn [CEngine.c_step xexpr xok xlive] in *. destruct (c_wc_ok wc act s H) as [s' [r [-> [H' [G [S' R]]]]]]. exists s'. split; [reflexivity|]. split; [auto|]. rewrite S'.
      split; [unfold held_map; now rewrite map_app|]. apply Forall2_app; [eapply slots_grow; eauto|]. constructor; [|constructor]. split; [exact Hc|].
      exists (c_wc_to_BDD A_eq_dec SHIFT wc act). split; [|exact R]. cbn [BddApi.beval]. destruct Hc as [->|Hc]; [reflexivity|]. now apply c_wc_to_BDD_ok.
    - destruct Hc as [Hi Hj]. destruct (c_binop_ok op i j s es Hf H Hsl Hi Hj) as [s' [r [-> [H' [S' F']]]]]. exists s'. split; [reflexivity|]. split; [auto|].
      split; [|exact F']. rewrite S'. unfold held_map. now rewrite map_app.
    - cbn [CEngine.c_step xexpr xok xlive] in *. destruct (slots_at _ _ _ Hsl i Hc) as [r [Er _]]. unfold c_drop, get_slot. rewrite Er. cbn [cbind].
      set (s1 := mke (ms s) (oc s) (rc s) (firstn i (slots s) ++ None :: skipn (S i) (slots s)) (thr s) (time s)).
      destruct (release_ok s1 [] [r]) as [m [-> [H2 M2]]].
      { destruct H as [H1 H2 H3 H4]. constructor; auto. eapply tidy_occ; [exact H1|]. intros x. rewrite !occ_app, !roots_split.
        pose proof (occ_drop (slots s) i r x Er) as Q. cbn zeta in Q. cbn [s1 slots oc rc]. rewrite Q. rewrite (occ_nil x). lia. }
      eexists. split; [reflexivity|]. split; [exact H2|]. cbn [with_ms ms slots s1] in *. split; [apply held_drop|]. rewrite M2. apply slots_drop; auto.
      apply nth_error_Some. congruence.
    - cbn [CEngine.c_step xexpr xlive]. destruct (gc_eok s [] H) as [m [-> [H2 Keep]]]. eexists. split; [reflexivity|]. split; [exact H2|]. split; [reflexivity|].
      cbn [with_ms ms slots]. eapply slots_keep; [|exact Hsl]. intros r b Hin Hc'. apply Keep; [|exact Hc']. apply in_or_app. left. now apply in_roots_slot.
    - cbn [CEngine.c_step xexpr xlive set_cleanup_threshold snd]. eexists. split; [reflexivity|]. cbn [slots ms]. split; [|auto]. destruct H as [H1 H2 H3 H4]. constructor; auto.
  Qed.

  Theorem c_run_ok : (Z.to_nat NB + 2 <= frames)%nat -> forall cs s es, eok s [] -> Forall2 (slot_ok (mem (ms s))) (slots s) es -> xoks (held_map (slots s)) cs ->
    exists s', c_run cs s = Fine s' /\ eok s' [] /\ held_map (slots s') = fold_left xlive cs (held_map (slots s)) /\
      Forall2 (slot_ok (mem (ms s'))) (slots s') (xexprs es cs).
  Proof.
    intros Hf. unfold CEngine.c_run, xexprs. induction cs as [|c cs IH]; intros s es H Hsl Hc; cbn [cfold fold_left xoks] in *; [exists s; auto|].
    destruct Hc as [Hc Hcs]. destruct (c_step_ok c s es Hf H Hsl Hc) as [s1 [-> [H1 [L1 F1]]]]. cbn [cbind]. rewrite <- L1 in *. auto.
  Qed.

  Lemma eok_init : eok (c_init alloc differs) [].
  Proof.
    cbn [c_init new_object clock tbl]. set (d := alloc 0%nat []). constructor; cbn [set_item ms oc rc mem tbl cnt clock app]; try (intros; contradiction).
    - constructor; cbn [set_item mem tbl cnt clock app].
      + repeat constructor. auto.
      + intros x. cbn [In]. destruct (Nat.eq_dec x d) as [->|Hne]; [rewrite upd_same|rewrite upd_other by auto].
        * split; [discriminate|auto].
        * split; [intros [e|[]]; congruence|congruence].
      + intros x n z o hn. destruct (Nat.eq_dec x d) as [->|Hne]; [rewrite upd_same|rewrite upd_other by auto]; discriminate.
      + intros x y c e Hx Hy _. destruct (Nat.eq_dec x d) as [->|Hxd]; [|rewrite upd_other in Hx by auto; discriminate].
        destruct (Nat.eq_dec y d) as [->|Hyd]; [auto|rewrite upd_other in Hy by auto; discriminate].
      + intros x Hx. unfold roots, holders, CEngine.perm, differing in Hx. cbn [slots oc rc flat_map map app In] in Hx.
        assert (x = d) as -> by (fold d in Hx; intuition congruence). rewrite upd_same. discriminate.
      + intros x Hx. destruct (Nat.eq_dec x d) as [->|Hne]; [|rewrite upd_other in Hx by auto; congruence].
        rewrite !upd_same. unfold roots, holders, CEngine.perm, differing. cbn [slots oc rc flat_map map app kids]. fold d. rewrite upd_same. cbn [cell_zero cell_one app].
        rewrite (occ_cons d None), (occ_cons d None [_; _; _]), !occ_none, (occ_cons d (Some d)), (occ_cons d (Some d) [_]), !occ_same. reflexivity.
    - fold d. apply upd_same.
  Qed.
End E.
