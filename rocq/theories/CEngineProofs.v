(** The collector of the C BDD engine, and the engine running with it (C80, C81). *)
From Verif Require Import SpecBdd BddHeap WildcardProofs MatchWcProofs BddProofs BddApi BddHeapProofs CEngine SpecGc.
From Coq Require Import Lia ZifyBool ZifyNat.
Local Opaque NB.

Lemma upd_same {X} (f : nat -> X) a x : upd f a x a = x.
Proof. unfold upd. destruct Nat.eq_dec; congruence. Qed.
Lemma upd_other {X} (f : nat -> X) a x b : b <> a -> upd f a x b = f b.
Proof. unfold upd. destruct Nat.eq_dec; congruence. Qed.

Lemma cfold_app {X Y} (f : X -> Y -> cres X) l l' x : cfold f x (l ++ l') = cdo y <- cfold f x l; cfold f y l'.
Proof. revert x. induction l as [|a l IH]; intros x; cbn [app cfold cbind]; [reflexivity|]. destruct (f x a); cbn [cbind]; auto. Qed.

Lemma occ_app x l l' : occ x (l ++ l') = occ x l + occ x l'.
Proof. unfold occ. rewrite count_occ_app. lia. Qed.
Lemma occ_nil x : occ x [] = 0. Proof. reflexivity. Qed.
Lemma occ_cons x r l : occ x (r :: l) = occ x [r] + occ x l.
Proof. change (r :: l) with ([r] ++ l). apply occ_app. Qed.
Lemma occ_none x : occ x [None] = 0. Proof. reflexivity. Qed.
Lemma occ_same x : occ x [Some x] = 1.
Proof. unfold occ. cbn [count_occ]. destruct ref_eq_dec; [reflexivity|congruence]. Qed.
Lemma occ_other x y : x <> y -> occ x [Some y] = 0.
Proof. intros H. unfold occ. cbn [count_occ]. destruct ref_eq_dec; [congruence|reflexivity]. Qed.
Lemma occ_ge x l : 0 <= occ x l. Proof. unfold occ. lia. Qed.
Lemma occ_pos x l : 0 < occ x l <-> In (Some x) l.
Proof. unfold occ. rewrite (count_occ_In ref_eq_dec). lia. Qed.

Section G.
  Context {A : Type} (A_eq_dec : forall x y : A, {x = y} + {x <> y}).
  Notation cell := (cell A). Notation mst := (mst A). Notation est := (est A). Notation bdd := (bdd A).
  Notation mk := (mk A_eq_dec).
  Notation cell_eqb := (cell_eqb A_eq_dec).
  Notation tidy := (tidy A_eq_dec).
  Context (frames : nat).

  Definition live (m : mst) (r : ref) : Prop := match r with None => True | Some x => mem m x <> None end.

  Lemma tidy_occ m E E' : tidy m E -> (forall x, occ x E = occ x E') -> tidy m E'.
  Proof.
    intros H He. destruct H as [H1 H2 H3 H4 H5 H6]. constructor; auto.
    - intros x Hx. apply H5. apply occ_pos. rewrite He. now apply occ_pos.
    - intros x Hx. rewrite (H6 x Hx), !occ_app, He. reflexivity.
  Qed.

  Lemma load_ok (m : mst) a c : mem m a = Some c -> load m a = Fine c.
  Proof. unfold load. now intros ->. Qed.

  Lemma incref_ok m E r : tidy m E -> live m r ->
    exists m', incref r m = Fine m' /\ tidy m' (r :: E) /\ mem m' = mem m /\ tbl m' = tbl m /\ clock m' = clock m.
  Proof.
    intros H Hr. destruct r as [a|].
    - cbn [incref live] in *. destruct (mem m a) as [c|] eqn:Ea; [|congruence]. rewrite (load_ok _ _ _ Ea). cbn [cbind].
      eexists. split; [reflexivity|]. split; [|auto]. destruct H as [H1 H2 H3 H4 H5 H6]. constructor; cbn [mem tbl cnt]; auto.
      + intros x [Hx|Hx]; [|auto]. injection Hx as ->. congruence.
      + intros x Hx. rewrite occ_app, occ_cons. destruct (Nat.eq_dec x a) as [->|Hne].
        * rewrite upd_same, occ_same, (H6 a Hx), occ_app. lia.
        * rewrite upd_other, occ_other, (H6 x Hx), occ_app by auto. lia.
    - exists m. split; [reflexivity|]. split; [|auto]. eapply tidy_occ; [exact H|]. intros x. rewrite (occ_cons x None). rewrite occ_none. lia.
  Qed.

  Lemma decref_ok f m E r : tidy m (r :: E) ->
    exists m', decref f r m = Fine m' /\ tidy m' E /\ mem m' = mem m /\ tbl m' = tbl m /\ clock m' = clock m.
  Proof.
    intros H. destruct r as [a|].
    - assert (Ha : mem m a <> None) by (apply (t_held _ _ _ H); now left).
      destruct (mem m a) as [c|] eqn:Ea; [|congruence].
      assert (Hc : 3 <= cnt m a).
      { rewrite (t_cnt _ _ _ H a) by congruence. rewrite occ_app, occ_cons, occ_same.
        pose proof (occ_ge a (kids (mem m) (tbl m))). pose proof (occ_ge a E). lia. }
      destruct f; cbn [decref]; rewrite (load_ok _ _ _ Ea); cbn [cbind cnt]; rewrite upd_same;
        (destruct (Z.eqb_spec (cnt m a - 1) 0) as [X|_]; [lia|]); (eexists; split; [reflexivity|]; split; [|auto]);
        destruct H as [H1 H2 H3 H4 H5 H6]; constructor; cbn [mem tbl cnt]; auto; try (intros x Hx; apply H5; now right);
        intros x Hx; (destruct (Nat.eq_dec x a) as [->|Hne];
          [rewrite upd_same, (H6 a Hx), !occ_app, (occ_cons a (Some a)), occ_same; lia
          |rewrite upd_other, (H6 x Hx), !occ_app, (occ_cons x (Some a)), occ_other by auto; lia]).
    - exists m. split; [destruct f; reflexivity|]. split; [|auto]. eapply tidy_occ; [exact H|]. intros x. rewrite (occ_cons x None), occ_none. lia.
  Qed.

  Lemma increfs_ok l : forall m E, tidy m E -> Forall (live m) l ->
    exists m', increfs l m = Fine m' /\ tidy m' (l ++ E) /\ mem m' = mem m /\ tbl m' = tbl m /\ clock m' = clock m.
  Proof.
    unfold increfs. induction l as [|r l IH]; intros m E H Hl; cbn [cfold app]; [exists m; auto|].
    inversion Hl as [|? ? Hr Hl']; subst. destruct (incref_ok m E r H Hr) as [m1 [-> [T1 [M1 [B1 K1]]]]]. cbn [cbind].
    destruct (IH m1 (r :: E) T1) as [m2 [-> [T2 [M2 [B2 K2]]]]].
    { eapply Forall_impl; [|exact Hl']. intros q Hq. destruct q; cbn [live] in *; [now rewrite M1|auto]. }
    exists m2. split; [reflexivity|]. split; [|split; [congruence|split; congruence]]. eapply tidy_occ; [exact T2|].
    intros x. rewrite occ_app, (occ_cons x r E), (occ_cons x r (l ++ E)), occ_app. lia.
  Qed.
  Lemma decrefs_ok l : forall m E, tidy m (l ++ E) ->
    exists m', decrefs frames l m = Fine m' /\ tidy m' E /\ mem m' = mem m /\ tbl m' = tbl m /\ clock m' = clock m.
  Proof.
    unfold decrefs. induction l as [|r l IH]; intros m E H; cbn [cfold app] in *; [exists m; auto|].
    destruct (decref_ok frames m (l ++ E) r H) as [m1 [-> [T1 [M1 [B1 K1]]]]]. cbn [cbind].
    destruct (IH m1 E T1) as [m2 [-> [T2 [M2 [B2 K2]]]]]. exists m2. split; [reflexivity|]. split; [auto|]. split; [congruence|split; congruence].
  Qed.

  Lemma find_addr_some m c l x : find_addr A_eq_dec m c l = Some x -> In x l /\ exists d, mem m x = Some d /\ cell_eqb c d = true.
  Proof.
    induction l as [|y l IH]; cbn [find_addr]; [discriminate|]. destruct (mem m y) as [d|] eqn:Ey.
    - destruct (cell_eqb c d) eqn:Ec; [intros [= ->]; split; [now left|eauto]|]. intros H. destruct (IH H). split; [now right|auto].
    - intros H. destruct (IH H). split; [now right|auto].
  Qed.
  Lemma find_addr_none m c l : find_addr A_eq_dec m c l = None -> forall x d, In x l -> mem m x = Some d -> cell_eqb c d = false.
  Proof.
    induction l as [|y l IH]; cbn [find_addr]; [intros _ x d []|]. intros H x d Hin Hx.
    destruct (mem m y) as [e|] eqn:Ey.
    - destruct (cell_eqb c e) eqn:Ec; [discriminate|]. destruct Hin as [->|Hin]; [congruence|eauto].
    - destruct Hin as [->|Hin]; [congruence|eauto].
  Qed.
  Lemma find_addr_self m E x c : tidy m E -> mem m x = Some c -> find_addr A_eq_dec m c (tbl m) = Some x.
  Proof.
    intros H Hx. destruct (find_addr A_eq_dec m c (tbl m)) as [y|] eqn:Ef.
    - apply find_addr_some in Ef as [_ [d [Ey Ec]]]. f_equal. symmetry. eapply (t_uniq _ _ _ H); eauto.
    - assert (Hin : In x (tbl m)) by (apply (t_live _ _ _ H); congruence).
      pose proof (find_addr_none _ _ _ Ef x c Hin Hx) as X. now rewrite (cell_eqb_refl A_eq_dec) in X.
  Qed.

  (** *** Removing a node nothing refers to *)
  Lemma kids_out (f : nat -> option cell) l x c : NoDup l -> In x l -> f x = Some c -> forall y,
    occ y (kids f l) = occ y (kids (upd f x None) (filter (fun z => negb (Nat.eqb z x)) l)) + occ y [cell_zero c; cell_one c].
  Proof.
    intros Hn Hin Hx y. induction l as [|z l IH]; [destruct Hin|]. inversion Hn as [|? ? Hz Hn']; subst.
    cbn [filter]. destruct (Nat.eqb_spec z x) as [->|Hne]; cbn [negb].
    - unfold kids at 1. cbn [flat_map]. rewrite Hx. fold (kids f l). rewrite occ_app.
      assert (E : kids (upd f x None) (filter (fun z => negb (Nat.eqb z x)) l) = kids f l); [|rewrite E; lia].
      clear - Hz. induction l as [|w l IH]; [reflexivity|]. cbn [filter]. destruct (Nat.eqb_spec w x) as [->|Hw]; [destruct Hz; now left|].
      cbn [negb]. unfold kids. cbn [flat_map]. rewrite upd_other by auto. f_equal. apply IH. intros H. apply Hz. now right.
    - destruct Hin as [->|Hin]; [congruence|]. unfold kids at 1 2. cbn [flat_map]. rewrite upd_other by auto.
      fold (kids f l). fold (kids (upd f x None) (filter (fun z => negb (Nat.eqb z x)) l)). rewrite !occ_app, (IH Hn' Hin). lia.
  Qed.

  Lemma decref_shared f (m : mst) r : (match r with None => True | Some a => mem m a <> None /\ cnt m a <> 1 end) ->
    exists m', decref f r m = Fine m' /\ mem m' = mem m /\ tbl m' = tbl m /\ clock m' = clock m /\ forall y, cnt m' y = cnt m y - occ y [r].
  Proof.
    destruct r as [a|]; intros H.
    - destruct H as [Ha Hc]. destruct (mem m a) as [c|] eqn:Ea; [|congruence].
      destruct f; cbn [decref]; rewrite (load_ok _ _ _ Ea); cbn [cbind cnt]; rewrite upd_same;
        (destruct (Z.eqb_spec (cnt m a - 1) 0) as [X|_]; [lia|]); (eexists; split; [reflexivity|]; cbn [mem tbl clock cnt]; do 3 (split; [reflexivity|]));
        intros y; (destruct (Nat.eq_dec y a) as [->|Hne]; [rewrite upd_same, occ_same; lia|rewrite upd_other, occ_other by auto; lia]).
    - exists m. split; [destruct f; reflexivity|]. do 3 (split; [reflexivity|]). intros y. rewrite occ_none. lia.
  Qed.

  Lemma kid_in (m : mst) l x c r : In x l -> mem m x = Some c -> r = cell_zero c \/ r = cell_one c -> In r (kids (mem m) l).
  Proof.
    intros Hin Hx Hr. unfold kids. apply in_flat_map. exists x. split; [auto|]. rewrite Hx. destruct Hr as [->| ->]; [now left|right; now left].
  Qed.
  Lemma kid_live m E x c r : tidy m E -> mem m x = Some c -> r = cell_zero c \/ r = cell_one c -> live m r.
  Proof.
    intros H Hx Hr. destruct c as [a|n z o hn]; [destruct Hr as [->| ->]; exact Logic.I|].
    destruct (t_node _ _ _ H _ _ _ _ _ Hx) as [_ [_ [Hz [Ho _]]]]. cbn [cell_zero cell_one] in Hr.
    destruct Hr as [->| ->]; [destruct z|destruct o]; cbn [live below] in *; auto.
    - destruct Hz as [d [Hd _]]. congruence.
    - destruct Ho as [d [Hd _]]. congruence.
  Qed.
  Lemma kid_less m E x c y d : tidy m E -> mem m x = Some c -> Some y = cell_zero c \/ Some y = cell_one c -> mem m y = Some d ->
    0 <= cell_num c < cell_num d.
  Proof.
    intros H Hx Hr Hy. destruct c as [a|n z o hn]; [destruct Hr; discriminate|].
    destruct (t_node _ _ _ H _ _ _ _ _ Hx) as [Hn [_ [Hz [Ho _]]]]. cbn [cell_zero cell_one cell_num] in *.
    destruct Hr as [<-|<-]; cbn [below] in *.
    - destruct Hz as [d' [Hd L]]. rewrite Hy in Hd. injection Hd as <-. lia.
    - destruct Ho as [d' [Hd L]]. rewrite Hy in Hd. injection Hd as <-. lia.
  Qed.
  Lemma kids_differ m E x c y : tidy m E -> mem m x = Some c -> Some y = cell_zero c -> Some y = cell_one c -> False.
  Proof.
    intros H Hx Hz Ho. destruct c as [a|n z o hn]; [discriminate|]. destruct (t_node _ _ _ H _ _ _ _ _ Hx) as [_ [Hne _]].
    cbn [cell_zero cell_one] in *. congruence.
  Qed.

  Hypothesis frames_pos : (1 <= frames)%nat.
  Lemma del_item_ok m E x c : tidy m E -> mem m x = Some c -> cnt m x = 2 ->
    exists m', del_item A_eq_dec frames m x = Fine m' /\ tidy m' E /\ mem m' = upd (mem m) x None /\
      tbl m' = filter (fun z => negb (Nat.eqb z x)) (tbl m) /\
      (forall y, y <> x -> cnt m' y = cnt m y - occ y [cell_zero c; cell_one c]).
  Proof.
    intros H Hx Hc. unfold del_item. rewrite (load_ok _ _ _ Hx). cbn [cbind]. rewrite (find_addr_self m E x c H Hx).
    set (l' := filter (fun z => negb (Nat.eqb z x)) (tbl m)).
    assert (Hin : In x (tbl m)) by (apply (t_live _ _ _ H); congruence).
    assert (Hfree : forall r, In r (kids (mem m) (tbl m) ++ E) -> r <> Some x).
    { intros r Hr ->. apply occ_pos in Hr. rewrite (t_cnt _ _ _ H x) in Hc by congruence. lia. }
    set (m1 := mkm (mem m) (cnt m) l' (clock m)).
    destruct (decref_shared frames m1 (Some x)) as [m2 [-> [M2 [B2 [K2 C2]]]]]. { cbn [m1 mem cnt]. split; [congruence|lia]. }
    cbn [cbind]. cbn [m1 mem tbl clock cnt] in *.
    assert (Ef : exists f, frames = S f) by (exists (pred frames); lia). destruct Ef as [f Ef]. rewrite Ef. cbn [decref]. rewrite (load_ok m2 x c) by congruence. cbn [cbind cnt]. rewrite upd_same, C2, occ_same, Hc.
    change (2 - 1 - 1 =? 0) with true. cbv iota.
    set (m3 := mkm (mem m2) (upd (cnt m2) x (2 - 1 - 1)) (tbl m2) (clock m2)).
    assert (Hk : forall r, r = cell_zero c \/ r = cell_one c -> match r with None => True | Some a => a <> x /\ mem m a <> None /\ 3 <= cnt m a end).
    { intros r Hr. destruct r as [a|]; [|exact Logic.I]. assert (Hia : In (Some a) (kids (mem m) (tbl m))) by (eapply kid_in; eauto).
      assert (La : mem m a <> None) by (pose proof (kid_live m E x c (Some a) H Hx Hr) as L; exact L).
      split; [intros ->; apply (Hfree (Some x)); [apply in_or_app; now left|reflexivity]|]. split; [auto|].
      rewrite (t_cnt _ _ _ H a La). rewrite occ_app. apply occ_pos in Hia. pose proof (occ_ge a E). lia. }
    destruct (decref_shared f m3 (cell_zero c)) as [m4 [-> [M4 [B4 [K4 C4]]]]].
    { specialize (Hk (cell_zero c) (or_introl eq_refl)). destruct (cell_zero c) as [a|]; [|auto]. destruct Hk as [Ha [La Ca]].
      cbn [m3 mem cnt]. rewrite M2. split; [auto|]. rewrite upd_other, C2, occ_other by auto. lia. }
    cbn [cbind].
    destruct (decref_shared f m4 (cell_one c)) as [m5 [-> [M5 [B5 [K5 C5]]]]].
    { pose proof (Hk (cell_one c) (or_intror eq_refl)) as Hk1. destruct (cell_one c) as [a|] eqn:Eo; [|auto]. destruct Hk1 as [Ha [La Ca]].
      rewrite M4. cbn [m3 mem]. rewrite M2. split; [auto|]. rewrite C4. cbn [m3 cnt]. rewrite upd_other, C2, (occ_other a x) by auto.
      destruct (cell_zero c) as [b|] eqn:Ez; [|rewrite occ_none; lia]. destruct (Nat.eq_dec a b) as [<-|Hab]; [|rewrite occ_other by auto; clear - Ca; lia].
      destruct (kids_differ m E x c a H Hx); congruence. }
    cbn [cbind]. eexists. split; [reflexivity|]. cbn [mem tbl cnt clock].
    assert (EM : mem m5 = mem m) by (rewrite M5, M4; cbn [m3 mem]; auto). assert (ET : tbl m5 = l') by (rewrite B5, B4; cbn [m3 tbl]; auto).
    assert (EC : forall y, y <> x -> cnt m5 y = cnt m y - occ y [cell_zero c; cell_one c]).
    { intros y Hy. rewrite C5, C4. cbn [m3 cnt]. rewrite upd_other, C2, (occ_other y x) by auto. pose proof (occ_cons y (cell_zero c) [cell_one c]) as Q. unfold ref in *. lia. }
    split; [|split; [now rewrite EM|split; [exact ET|exact EC]]].
    assert (Keep : forall r, In r (kids (mem m) (tbl m) ++ E) -> forall n, below (mem m) n r -> below (upd (mem m) x None) n r).
    { intros r Hr n Hb. destruct r as [j|]; [|exact Logic.I]. destruct Hb as [d [Hd L]]. exists d. split; [|auto].
      rewrite upd_other; [auto|]. intros ->. now apply (Hfree _ Hr). }
    assert (KeepN : forall r, In r (kids (mem m) (tbl m) ++ E) -> none_below (upd (mem m) x None) r = none_below (mem m) r).
    { intros r Hr. destruct r as [j|]; [|reflexivity]. cbn [none_below]. rewrite upd_other; [reflexivity|]. intros ->. now apply (Hfree _ Hr). }
    constructor; cbn [mem tbl cnt clock]; rewrite ?EM, ?ET.
    - apply NoDup_filter. apply (t_nodup _ _ _ H).
    - intros y. unfold l'. rewrite filter_In, (t_live _ _ _ H y). destruct (Nat.eqb_spec y x) as [->|Hy]; cbn [negb].
      + rewrite upd_same. split; [intros [_ ?]; discriminate|congruence].
      + rewrite upd_other by auto. tauto.
    - intros y n z o hn Hy. destruct (Nat.eq_dec y x) as [->|Hne]; [rewrite upd_same in Hy; discriminate|]. rewrite upd_other in Hy by auto.
      destruct (t_node _ _ _ H _ _ _ _ _ Hy) as [Hn [Hzo [Bz [Bo ->]]]].
      assert (Hiy : In y (tbl m)) by (apply (t_live _ _ _ H); congruence).
      assert (Iz : In z (kids (mem m) (tbl m) ++ E)) by (apply in_or_app; left; eapply kid_in; eauto).
      assert (Io : In o (kids (mem m) (tbl m) ++ E)) by (apply in_or_app; left; eapply kid_in; eauto).
      split; [auto|]. split; [auto|]. split; [now apply Keep|]. split; [now apply Keep|]. now rewrite !KeepN.
    - intros y z d e Hy Hz. destruct (Nat.eq_dec y x) as [->|Hy1]; [rewrite upd_same in Hy; discriminate|].
      destruct (Nat.eq_dec z x) as [->|Hz1]; [rewrite upd_same in Hz; discriminate|]. rewrite upd_other in Hy, Hz by auto. eapply (t_uniq _ _ _ H); eauto.
    - intros y Hy. rewrite upd_other; [apply (t_held _ _ _ H); auto|]. intros ->. apply (Hfree (Some x)); [apply in_or_app; now right|reflexivity].
    - intros y Hy. destruct (Nat.eq_dec y x) as [->|Hne]; [rewrite upd_same in Hy; congruence|]. rewrite upd_other in Hy by auto.
      rewrite EC by auto. rewrite (t_cnt _ _ _ H y Hy), !occ_app, (kids_out (mem m) (tbl m) x c) by (auto; apply (t_nodup _ _ _ H)). unfold l'. lia.
  Qed.

  (** *** The collector *)
  Definition alive (f : nat -> option cell) (x : nat) : bool := match f x with Some _ => true | None => false end.
  Record stage (m0 : mst) (E : list ref) (m : mst) (pend : list nat) : Prop := {
    s_tidy : tidy m E;
    s_nodup : NoDup pend;
    s_pend : forall x, In x pend <-> mem m x <> None /\ cnt m x = 2;
    s_sub : forall x c, mem m x = Some c -> mem m0 x = Some c;
    s_reached : forall x, reached (mem m0) E x -> mem m0 x <> None -> mem m x <> None;
    s_tbl : tbl m = filter (alive (mem m)) (tbl m0) }.

  Lemma gc_push_ok m E r next x c : tidy m E -> mem m x = Some c -> r = cell_zero c \/ r = cell_one c ->
    gc_push r m next = Fine (next ++ match r with Some a => if cnt m a =? 3 then [a] else [] | None => [] end).
  Proof.
    intros H Hx Hr. pose proof (kid_live m E x c r H Hx Hr) as L. destruct r as [a|]; cbn [gc_push live] in *; [|now rewrite app_nil_r].
    destruct (mem m a) as [d|] eqn:Ea; [|congruence]. rewrite (load_ok _ _ _ Ea). cbn [cbind]. destruct (cnt m a =? 3); [reflexivity|now rewrite app_nil_r].
  Qed.

  Lemma filter_two {X} (f g : X -> bool) l : filter f (filter g l) = filter (fun x => f x && g x) l.
  Proof. induction l as [|x l IH]; cbn [filter]; [reflexivity|]. destruct (g x); cbn [filter]; [|rewrite andb_false_r; auto]. rewrite andb_true_r. destruct (f x); now rewrite IH. Qed.

  Lemma gc_one_ok m0 E m x rest next : stage m0 E m (x :: rest ++ next) ->
    exists m' more, gc_one A_eq_dec frames (m, next) x = Fine (m', next ++ more) /\ stage m0 E m' (rest ++ next ++ more) /\
      S (List.length (tbl m')) = List.length (tbl m).
  Proof.
    intros [H Hnd Hp Hsub Hr Ht]. destruct (proj1 (Hp x) (or_introl eq_refl)) as [Lx Cx].
    destruct (mem m x) as [c|] eqn:Hx; [|congruence]. unfold gc_one. rewrite (load_ok _ _ _ Hx). cbn [cbind]. rewrite Cx. change (negb (2 =? 2)) with false. cbv iota.
    rewrite (gc_push_ok m E (cell_zero c) next x c H Hx (or_introl eq_refl)). cbn [cbind].
    rewrite (gc_push_ok m E (cell_one c) _ x c H Hx (or_intror eq_refl)). cbn [cbind].
    set (nz := match cell_zero c with Some a => if cnt m a =? 3 then [a] else [] | None => [] end).
    set (no := match cell_one c with Some a => if cnt m a =? 3 then [a] else [] | None => [] end).
    destruct (del_item_ok m E x c H Hx Cx) as [m' [-> [T' [M' [B' C']]]]]. cbn [cbind].
    exists m', (nz ++ no). rewrite <- app_assoc. split; [reflexivity|].
    assert (Hin : In x (tbl m)) by (apply (t_live _ _ _ H); congruence).
    assert (Nz : forall a, In a nz <-> Some a = cell_zero c /\ cnt m a = 3).
    { intros a. unfold nz. destruct (cell_zero c) as [b|]; [|split; [intros []|intros [? _]; discriminate]].
      destruct (Z.eqb_spec (cnt m b) 3) as [e|e]; cbn [In]; split; [intros [->|[]]; auto|intros [[= ->] _]; auto|intros []|intros [[= ->] ?]; congruence]. }
    assert (No : forall a, In a no <-> Some a = cell_one c /\ cnt m a = 3).
    { intros a. unfold no. destruct (cell_one c) as [b|]; [|split; [intros []|intros [? _]; discriminate]].
      destruct (Z.eqb_spec (cnt m b) 3) as [e|e]; cbn [In]; split; [intros [->|[]]; auto|intros [[= ->] _]; auto|intros []|intros [[= ->] ?]; congruence]. }
    assert (Hocc : forall y, y <> x -> mem m y <> None -> occ y [cell_zero c; cell_one c] = 0 /\ Some y <> cell_zero c /\ Some y <> cell_one c \/
              occ y [cell_zero c; cell_one c] = 1 /\ (Some y = cell_zero c \/ Some y = cell_one c) /\ 3 <= cnt m y).
    { intros y Hy Ly. rewrite (occ_cons y (cell_zero c) [cell_one c]).
      assert (G : forall r, occ y [r] = 0 /\ Some y <> r \/ occ y [r] = 1 /\ Some y = r).
      { intros r. destruct r as [b|]; [|left; split; [apply occ_none|discriminate]]. destruct (Nat.eq_dec y b) as [<-|Hb]; [right; split; [apply occ_same|auto]|].
        left. split; [now apply occ_other|congruence]. }
      assert (Hc3 : forall r, r = cell_zero c \/ r = cell_one c -> Some y = r -> 3 <= cnt m y).
      { intros r Hrr <-. rewrite (t_cnt _ _ _ H y Ly), occ_app. assert (Hk : In (Some y) (kids (mem m) (tbl m))) by (eapply kid_in; eauto).
        apply occ_pos in Hk. pose proof (occ_ge y E). lia. }
      destruct (G (cell_zero c)) as [[Z0 Z1]|[Z0 Z1]], (G (cell_one c)) as [[O0 O1]|[O0 O1]]; rewrite Z0, O0.
      - left. auto.
      - right. split; [lia|]. split; [auto|apply (Hc3 (cell_one c)); auto].
      - right. split; [lia|]. split; [auto|apply (Hc3 (cell_zero c)); auto].
      - destruct (kids_differ m E x c y H Hx); auto. }
    inversion Hnd as [|? ? Hx1 Hnd']; subst.
    split; [constructor|].
    - exact T'.
    - (* no node is listed twice *)
      rewrite app_assoc. assert (D1 : forall a, In a (nz ++ no) -> ~ In a (rest ++ next)).
      { intros a Ha Hb. assert (Ca : cnt m a = 3) by (apply in_app_or in Ha as [Ha|Ha]; [apply Nz in Ha|apply No in Ha]; tauto).
        destruct (proj1 (Hp a) (or_intror Hb)) as [_ ?]. lia. }
      assert (D2 : NoDup (nz ++ no)).
      { unfold nz, no. destruct (cell_zero c) as [a|] eqn:Ez, (cell_one c) as [b|] eqn:Eo; cbn [app];
          repeat match goal with |- context [if ?t then _ else _] => destruct t end; cbn [app]; repeat constructor; cbn [In]; try tauto.
        intros [->|[]]. destruct (kids_differ m E x c a H Hx); congruence. }
      clear - Hnd' D1 D2. revert Hnd' D1 D2. generalize (rest ++ next) (nz ++ no). intros l l' H1 H2 H3. induction l as [|a l IH]; [exact H3|].
      inversion H1 as [|? ? Ha H1']; subst. cbn [app]. constructor.
      + rewrite in_app_iff. intros [Q|Q]; [auto|]. apply (H2 a Q). now left.
      + apply IH; auto. intros b Hb Hb'. apply (H2 b Hb). now right.
    - intros y. rewrite M'. destruct (Nat.eq_dec y x) as [->|Hne].
      + rewrite upd_same. split; [|intros [? _]; congruence]. intros Hy. exfalso. rewrite app_assoc in Hy. apply in_app_or in Hy as [Hy|Hy]; [tauto|].
        assert (cnt m x = 3) by (apply in_app_or in Hy as [Ha|Ha]; [apply Nz in Ha|apply No in Ha]; tauto). lia.
      + rewrite upd_other by auto. rewrite C' by auto. split.
        * intros Hy. rewrite app_assoc in Hy. apply in_app_or in Hy as [Hy|Hy].
          -- destruct (proj1 (Hp y) (or_intror Hy)) as [Ly Cy]. split; [auto|]. destruct (Hocc y Hne Ly) as [[-> _]|[_ [_ ?]]]; lia.
          -- assert (Q : (Some y = cell_zero c \/ Some y = cell_one c) /\ cnt m y = 3) by (apply in_app_or in Hy as [Ha|Ha]; [apply Nz in Ha|apply No in Ha]; tauto).
             destruct Q as [Q Cy]. assert (Ly : mem m y <> None) by exact (kid_live m E x c (Some y) H Hx Q). split; [auto|].
             destruct (Hocc y Hne Ly) as [[_ [? ?]]|[-> _]]; [tauto|lia].
        * intros [Ly Cy]. destruct (Hocc y Hne Ly) as [[Z0 _]|[Z0 [Q _]]].
          -- assert (Hy : In y (x :: rest ++ next)) by (apply Hp; split; [auto|lia]). destruct Hy as [Hy|Hy]; [congruence|]. rewrite app_assoc. apply in_or_app. now left.
          -- rewrite app_assoc. apply in_or_app. right. apply in_or_app. destruct Q as [Q|Q]; [left; apply Nz|right; apply No]; split; auto; lia.
    - intros y d Hy. rewrite M' in Hy. destruct (Nat.eq_dec y x) as [->|Hne]; [rewrite upd_same in Hy; discriminate|]. rewrite upd_other in Hy by auto. auto.
    - intros y Hy Ly. rewrite M'. destruct (Nat.eq_dec y x) as [->|Hne]; [|rewrite upd_other by auto; auto]. exfalso.
      assert (Z0 : occ x (kids (mem m) (tbl m) ++ E) = 0) by (rewrite (t_cnt _ _ _ H x) in Cx by congruence; lia).
      assert (Q : forall r, In r (kids (mem m) (tbl m) ++ E) -> r <> Some x) by (intros r Hr' ->; apply occ_pos in Hr'; lia).
      assert (Par : forall w d, reached (mem m0) E w -> mem m0 w = Some d -> Some x = cell_zero d \/ Some x = cell_one d -> False).
      { intros w d Rw Hw Hd. assert (Lw : mem m w <> None) by (apply Hr; congruence). destruct (mem m w) as [d'|] eqn:Ew; [|congruence].
        assert (mem m0 w = Some d') by auto. assert (d' = d) as -> by congruence.
        apply (Q (Some x)); [apply in_or_app; left|reflexivity]. apply (kid_in m (tbl m) w d); auto. apply (t_live _ _ _ H). congruence. }
      inversion Hy as [w Hw|w v d Rv Hv Hd|w v d Rv Hv Hd]; subst.
      + apply (Q (Some x)); [apply in_or_app; now right|reflexivity].
      + eapply Par; eauto.
      + eapply Par; eauto.
    - rewrite B', Ht, filter_two, M'. apply filter_ext_in. intros y _. unfold alive. destruct (Nat.eqb_spec y x) as [->|Hne].
      + now rewrite upd_same.
      + rewrite upd_other by auto. reflexivity.
    - rewrite B'. clear - Hin H. pose proof (t_nodup _ _ _ H) as Hn. revert Hn Hin. generalize (tbl m). clear. induction l as [|y l IH]; intros Hn Hin; [destruct Hin|].
      inversion Hn as [|? ? Hy Hn']; subst. cbn [filter]. destruct (Nat.eqb_spec y x) as [->|Hne]; cbn [negb List.length].
      + f_equal. clear - Hy. induction l as [|z l IH]; [reflexivity|]. cbn [filter]. destruct (Nat.eqb_spec z x) as [->|Hz]; [destruct Hy; now left|].
        cbn [negb List.length]. f_equal. apply IH. intros Q. apply Hy. now right.
      + f_equal. apply IH; auto. destruct Hin; [congruence|auto].
  Qed.

  Lemma gc_round_ok m0 E : forall l m next, stage m0 E m (l ++ next) ->
    exists m' more, cfold (gc_one A_eq_dec frames) (m, next) l = Fine (m', next ++ more) /\ stage m0 E m' (next ++ more) /\
      (List.length (tbl m') + List.length l = List.length (tbl m))%nat.
  Proof.
    induction l as [|x l IH]; intros m next H; cbn [app cfold] in *.
    - exists m, []. rewrite app_nil_r. split; [reflexivity|]. split; [auto|]. cbn [List.length]. lia.
    - destruct (gc_one_ok m0 E m x l next H) as [m1 [mo [-> [H1 L1]]]]. cbn [cbind].
      destruct (IH m1 (next ++ mo) H1) as [m2 [mo2 [-> [H2 L2]]]]. exists m2, (mo ++ mo2). rewrite app_assoc. split; [reflexivity|]. split; [auto|]. cbn [List.length]. lia.
  Qed.
  Lemma gc_loop_ok m0 E : forall k l m, stage m0 E m l -> (List.length (tbl m) <= k)%nat ->
    exists m', gc_loop A_eq_dec frames k l m = Fine m' /\ stage m0 E m' [].
  Proof.
    induction k as [|k IH]; intros l m H Hk.
    - destruct l as [|x l]; [exists m; auto|]. destruct (proj1 (s_pend _ _ _ _ H x) (or_introl eq_refl)) as [Lx _].
      apply (t_live _ _ _ (s_tidy _ _ _ _ H)) in Lx. destruct (tbl m); [destruct Lx|cbn in Hk; lia].
    - destruct l as [|x l]; [exists m; auto|]. cbn [gc_loop].
      destruct (gc_round_ok m0 E (x :: l) m []) as [m1 [mo [-> [H1 L1]]]]. { now rewrite app_nil_r. }
      cbn [cbind app] in *. apply (IH mo m1 H1). cbn [List.length] in L1. lia.
  Qed.

  Lemma stage_end m0 E m : tidy m0 E -> stage m0 E m [] -> forall x c, mem m x = Some c -> reached (mem m0) E x.
  Proof.
    intros H0 [H _ Hp Hsub _ _].
    assert (G : forall k x c, mem m x = Some c -> cell_num c <= Z.of_nat k -> reached (mem m0) E x).
    { induction k as [k IH] using (well_founded_induction lt_wf). intros x c Hx Hk.
      assert (Lx : mem m x <> None) by congruence. pose proof (t_cnt _ _ _ H x Lx) as Cx.
      assert (0 < occ x (kids (mem m) (tbl m) ++ E)).
      { pose proof (occ_ge x (kids (mem m) (tbl m) ++ E)). destruct (Z.eq_dec (cnt m x) 2) as [e|]; [|lia].
        destruct (proj2 (Hp x)); auto. }
      assert (Hin : In (Some x) (kids (mem m) (tbl m) ++ E)) by now apply occ_pos.
      apply in_app_or in Hin as [Hin|Hin]; [|now apply reached_root].
      unfold kids in Hin. apply in_flat_map in Hin as [y [Hy Hin]]. destruct (mem m y) as [d|] eqn:Ey; [|destruct Hin].
      assert (Q : Some x = cell_zero d \/ Some x = cell_one d) by (destruct Hin as [e|[e|[]]]; auto).
      destruct (kid_less m E y d x c H Ey Q Hx) as [Hd0 Hlt].
      assert (Ry : reached (mem m0) E y). { apply (IH (Z.to_nat (cell_num d))) with (c := d); auto; lia. }
      destruct Q as [Q|Q]; [eapply reached_zero|eapply reached_one]; eauto. }
    intros x c Hx. apply (G (Z.to_nat (cell_num c)) x c Hx). destruct c as [a|n z o hn]; [cbn [cell_num]; unfold TERM_NUM; lia|].
    destruct (t_node _ _ _ H _ _ _ _ _ Hx) as [Hn _]. cbn [cell_num]. lia.
  Qed.

  Lemma reached_live m E x : tidy m E -> reached (mem m) E x -> mem m x <> None.
  Proof.
    intros H Hr. destruct Hr as [x Hx|x y c Ry Hy Hc|x y c Ry Hy Hc].
    - now apply (t_held _ _ _ H).
    - exact (kid_live m E y c (Some x) H Hy (or_introl (eq_sym Hc))).
    - exact (kid_live m E y c (Some x) H Hy (or_intror (eq_sym Hc))).
  Qed.

  Theorem gc_ok m E : tidy m E -> exists m', gc_node_cache A_eq_dec frames m = Fine m' /\ tidy m' E /\
    (forall x, reached (mem m) E x -> mem m' x = mem m x) /\ (forall x, mem m' x <> None -> reached (mem m) E x) /\
    tbl m' = filter (alive (mem m')) (tbl m).
  Proof.
    intros H. unfold gc_node_cache. destruct (gc_loop_ok m E (List.length (tbl m)) (gc_scan m) m) as [m' [Eg Hs]]; [|lia|].
    - constructor; auto.
      + apply NoDup_filter, (t_nodup _ _ _ H).
      + intros x. unfold gc_scan. rewrite filter_In, (t_live _ _ _ H x). rewrite Z.eqb_eq. tauto.
      + symmetry. assert (G : forall l, incl l (tbl m) -> filter (alive (mem m)) l = l); [|apply G, incl_refl].
        induction l as [|x l IH]; intros Hl; [reflexivity|]. cbn [filter]. unfold alive at 1.
        assert (Lx : mem m x <> None) by (apply (t_live _ _ _ H), Hl; now left). destruct (mem m x); [|congruence]. f_equal. apply IH. intros y Hy. apply Hl. now right.
    - exists m'. split; [exact Eg|]. split; [apply (s_tidy _ _ _ _ Hs)|].
      split; [|split; [|apply (s_tbl _ _ _ _ Hs)]].
      + intros x Hx. pose proof (reached_live m E x H Hx) as Lx. pose proof (s_reached _ _ _ _ Hs x Hx Lx) as L'.
        destruct (mem m' x) as [c|] eqn:Ec; [|congruence]. symmetry. now apply (s_sub _ _ _ _ Hs).
      + intros x Hx. destruct (mem m' x) as [c|] eqn:Ec; [|congruence]. eapply stage_end; eauto.
  Qed.
End G.
