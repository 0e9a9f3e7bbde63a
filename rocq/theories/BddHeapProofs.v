(** The caches of bdd.py are transparent (C15). *)
From Verif Require Import SpecBdd BddHeap WildcardProofs MatchWcProofs BddProofs BddApi.
From Coq Require Import ZifyBool ZifyNat ZifyN.
Ltac Zify.zify_post_hook ::= Z.div_mod_to_equations.
Local Opaque NB.

Section P.
  Context {A : Type} (A_eq_dec : forall x y : A, {x = y} + {x <> y}) (differs : A).
  Notation cell := (cell A). Notation st := (st A). Notation bdd := (bdd A).
  Notation mk := (mk A_eq_dec).
  Notation cell_eqb := (cell_eqb A_eq_dec).

  (** *** What a reference stands for *)
  Inductive rep (h : list cell) : ref -> bdd -> Prop :=
  | rep_none : rep h None BNone
  | rep_term i a : nth_error h i = Some (CTerm a) -> rep h (Some i) (BTerm a)
  | rep_node i n z o hn bz bo : nth_error h i = Some (CNode n z o hn) -> rep h z bz -> rep h o bo ->
      rep h (Some i) (BNode n bz bo).

  Definition child_ok (h : list cell) (i : nat) (n : Z) (r : ref) : Prop :=
    match r with None => True | Some j => (j < i)%nat /\ exists c, nth_error h j = Some c /\ n < cell_num c end.
  Definition hn_of (h : list cell) (r : ref) : bool :=
    match r with None => true | Some j => match nth_error h j with Some c => cell_hn c | None => true end end.
  Record hok (h : list cell) : Prop := {
    h_differs : nth_error h 0 = Some (CTerm differs);
    h_node : forall i n z o hn, nth_error h i = Some (CNode n z o hn) ->
      0 <= n < NB /\ z <> o /\ child_ok h i n z /\ child_ok h i n o /\ hn = (hn_of h z || hn_of h o);
    h_uniq : forall i j c d, nth_error h i = Some c -> nth_error h j = Some d -> cell_eqb c d = true -> i = j }.

  Definition ext (h h' : list cell) : Prop := exists e, h' = h ++ e.
  Lemma ext_refl h : ext h h. Proof. exists []. now rewrite app_nil_r. Qed.
  Lemma ext_trans h1 h2 h3 : ext h1 h2 -> ext h2 h3 -> ext h1 h3.
  Proof. intros [e ->] [e' ->]. exists (e ++ e'). now rewrite app_assoc. Qed.
  Lemma ext_nth h h' i c : ext h h' -> nth_error h i = Some c -> nth_error h' i = Some c.
  Proof. intros [e ->] H. rewrite nth_error_app1; auto. apply nth_error_Some. congruence. Qed.
  Lemma rep_ext h h' r b : ext h h' -> rep h r b -> rep h' r b.
  Proof.
    intros He H. induction H as [|i a H|i n z o hn bz bo H Hz IHz Ho IHo].
    - constructor.
    - constructor. eapply ext_nth; eauto.
    - econstructor; eauto. eapply ext_nth; eauto.
  Qed.

  Lemma cell_eqb_refl c : cell_eqb c c = true.
  Proof.
    destruct c as [a|n z o hn]; cbn [BddHeap.cell_eqb cell_num cell_zero cell_one].
    - destruct A_eq_dec; congruence.
    - rewrite Z.eqb_refl. cbn [andb]. destruct (ref_eq_dec z z), (ref_eq_dec o o); first [reflexivity|congruence].
  Qed.
  Lemma cell_eqb_node n z o hn c : n <> TERM_NUM -> cell_eqb (CNode n z o hn) c = true -> exists hn', c = CNode n z o hn'.
  Proof.
    intros Hn. cbn [BddHeap.cell_eqb]. destruct c as [a|n' z' o' hn']; cbn [cell_num cell_zero cell_one]; intros H;
      apply andb_true_iff in H as [H H3]; apply andb_true_iff in H as [H1 H2]; apply Z.eqb_eq in H1.
    - congruence.
    - destruct (ref_eq_dec z z'); [|discriminate]. destruct (ref_eq_dec o o'); [|discriminate]. subst. eauto.
  Qed.
  Lemma cell_eqb_term a c : cell_eqb (CTerm a) c = true -> c = CTerm a.
  Proof. cbn [BddHeap.cell_eqb]. destruct c as [b|]; [|discriminate]. destruct A_eq_dec; congruence. Qed.

  Lemma rep_fun h r b : rep h r b -> forall b', rep h r b' -> b = b'.
  Proof.
    intros H. induction H as [|i a H|i n z o hn bz bo H Hz IHz Ho IHo]; intros b' H'; inversion H'; subst; try congruence.
    rewrite H in *. match goal with X : Some _ = Some _ |- _ => injection X as -> -> -> -> end. f_equal; auto.
  Qed.
  Lemma rep_inj h : hok h -> forall b r r', rep h r b -> rep h r' b -> r = r'.
  Proof.
    intros Hh. induction b as [|a|n z IHz o IHo]; intros r r' H H'; inversion H; inversion H'; subst; try congruence.
    - f_equal. eapply (h_uniq h Hh); eauto. apply cell_eqb_refl.
    - f_equal. assert (z0 = z1) as -> by eauto. assert (o0 = o1) as -> by eauto.
      eapply (h_uniq h Hh); eauto. cbn [BddHeap.cell_eqb cell_num cell_zero cell_one].
      rewrite Z.eqb_refl. cbn [andb]. destruct (ref_eq_dec z1 z1), (ref_eq_dec o1 o1); first [reflexivity|congruence].
  Qed.
  Lemma rep_eq h : hok h -> forall r r' b b', rep h r b -> rep h r' b' -> (r = r' <-> b = b').
  Proof. intros Hh r r' b b' H H'. split; intros ->; [eapply rep_fun|eapply rep_inj]; eauto. Qed.

  Definition tnum (b : bdd) : Z := match b with BNode n _ _ => n | _ => TERM_NUM end.
  Definition tzero (b : bdd) : bdd := match b with BNode _ z _ => z | _ => BNone end.
  Definition tone (b : bdd) : bdd := match b with BNode _ _ o => o | _ => BNone end.

  Lemma rep_cell h i b : rep h (Some i) b -> b <> BNone /\
    exists c, nth_error h i = Some c /\ cell_num c = tnum b /\ rep h (cell_zero c) (tzero b) /\ rep h (cell_one c) (tone b).
  Proof.
    intros H. inversion H; subst; (split; [discriminate|]).
    - exists (CTerm a). repeat split; auto; constructor.
    - exists (CNode n z o hn). repeat split; auto.
  Qed.
  Lemma NB_TERM : NB < TERM_NUM. Proof. rewrite NB_val. reflexivity. Qed.

  Lemma rep_hn h : hok h -> forall b r, rep h r b -> hn_of h r = has_none b.
  Proof.
    intros Hh. induction b as [|a|n z IHz o IHo]; intros r H; inversion H as [|i a' E|i n' zr or hn bz bo E Hz Ho]; subst; cbn [hn_of has_none]; auto.
    - now rewrite E.
    - rewrite E. cbn [cell_hn]. destruct (h_node h Hh _ _ _ _ _ E) as [_ [_ [_ [_ ->]]]].
      erewrite IHz, IHo; eauto.
  Qed.

  Lemma rep_wf h : hok h -> forall b r lo, rep h r b -> (b = BNone \/ lo <= tnum b) -> bdd_wf lo b.
  Proof.
    intros Hh. induction b as [|a|n z IHz o IHo]; intros r lo H Hlo; cbn [bdd_wf]; auto.
    inversion H as [| |i n' zr or hn bz bo Hc Hz Ho]; subst.
    destruct (h_node h Hh _ _ _ _ _ Hc) as [Hn [Hne [Cz [Co _]]]].
    assert (Hch : forall r' b', rep h r' b' -> child_ok h i n r' -> b' = BNone \/ n + 1 <= tnum b').
    { intros r' b' Hr Hok. destruct r' as [j|]; [|inversion Hr; auto]. right.
      destruct Hok as [_ [c [Ec Lt]]]. apply rep_cell in Hr as [_ [c' [Ec' [En _]]]]. rewrite Ec in Ec'. injection Ec' as <-. lia. }
    split; [destruct Hlo as [E|Hlo]; [discriminate|cbn in Hlo; lia]|].
    split; [intros ->; apply Hne; eapply rep_inj; eauto|]. split; eauto.
  Qed.

  (** *** States *)
  Definition pure (op : opk) : bdd -> bdd -> bdd :=
    match op with
    | Merge => meld A_eq_dec | Diff => difference A_eq_dec differs
    | Sub => subtract A_eq_dec | Inter => intersection A_eq_dec
    end.
  Record sok (s : st) : Prop := {
    s_heap : hok (heap s);
    s_ocache : forall op a b r, In ((op, a, b), r) (ocache s) ->
      exists ta tb, rep (heap s) a ta /\ rep (heap s) b tb /\ rep (heap s) r (pure op ta tb);
    s_rcache : forall wc t r, In ((wc, t), r) (rcache s) ->
      exists act b, rep (heap s) (Some t) (BTerm act) /\ wc_to_BDD wc act = Ok b /\ rep (heap s) r b }.

  Lemma assoc_in {K V} eqd (k : K) (l : list (K * V)) v : assoc eqd k l = Some v -> In (k, v) l.
  Proof.
    induction l as [|[k' v'] t IH]; cbn; [discriminate|]. destruct (eqd k' k) as [->|].
    - intros [= ->]. now left.
    - intros H. right. auto.
  Qed.

  (** Growing the heap keeps the caches right. *)
  Lemma sok_ext s h' : sok s -> ext (heap s) h' -> hok h' -> sok (mkst h' (ocache s) (rcache s) (tick s)).
  Proof.
    intros [H1 H2 H3] He Hh. constructor; cbn [heap ocache rcache]; auto.
    - intros op a b r Hin. destruct (H2 _ _ _ _ Hin) as [ta [tb [X [Y W]]]]. exists ta, tb.
      exact (conj (rep_ext _ _ _ _ He X) (conj (rep_ext _ _ _ _ He Y) (rep_ext _ _ _ _ He W))).
    - intros wc t r Hin. destruct (H3 _ _ _ Hin) as [act [b [X [Y W]]]]. exists act, b.
      exact (conj (rep_ext _ _ _ _ He X) (conj Y (rep_ext _ _ _ _ He W))).
  Qed.

  (** *** check_ncache *)
  Lemma find_cell_some c h : forall k i, find_cell A_eq_dec c h k = Some i ->
    exists j x, i = (k + j)%nat /\ nth_error h j = Some x /\ cell_eqb c x = true.
  Proof.
    induction h as [|x h IH]; intros k i; cbn [find_cell]; [discriminate|]. destruct (cell_eqb c x) eqn:E.
    - intros [= <-]. exists 0%nat, x. split; [lia|]. split; [reflexivity|exact E].
    - intros H. destruct (IH _ _ H) as [j [y [-> [H1 H2]]]]. exists (S j), y. split; [lia|]. split; [exact H1|exact H2].
  Qed.
  Lemma find_cell_none c h : forall k, find_cell A_eq_dec c h k = None -> forall j x, nth_error h j = Some x -> cell_eqb c x = false.
  Proof.
    induction h as [|y h IH]; intros k; cbn [find_cell]; [intros _ [|j] x; discriminate|]. destruct (cell_eqb c y) eqn:E; [discriminate|].
    intros H [|j] x Hj; [cbn in Hj; congruence|eauto].
  Qed.
  Lemma cell_eqb_sym x y : (cell_num x <> TERM_NUM \/ exists a, x = CTerm a) -> (cell_num y <> TERM_NUM \/ exists a, y = CTerm a) ->
    cell_eqb x y = true -> cell_eqb y x = true.
  Proof.
    intros Hx Hy H. destruct x as [a|n z o hn].
    - apply cell_eqb_term in H as ->. apply cell_eqb_refl.
    - destruct Hx as [Hx|[a Hx]]; [|discriminate]. apply cell_eqb_node in H as [hn' ->]; [|exact Hx].
      cbn [BddHeap.cell_eqb cell_num cell_zero cell_one]. rewrite Z.eqb_refl. cbn [andb].
      destruct (ref_eq_dec z z), (ref_eq_dec o o); first [reflexivity|congruence].
  Qed.

  (** A cell that may be added to the heap. *)
  Definition cell_good (h : list cell) (c : cell) : Prop :=
    match c with
    | CTerm _ => True
    | CNode n z o hn => 0 <= n < NB /\ z <> o /\ child_ok h (List.length h) n z /\ child_ok h (List.length h) n o /\
        hn = (hn_of h z || hn_of h o)
    end.
  Lemma good_num h c : cell_good h c -> cell_num c <> TERM_NUM \/ exists a, c = CTerm a.
  Proof. destruct c; [eauto|]. cbn. intros [H _]. left. pose proof NB_TERM. lia. Qed.
  Lemma hok_num h i c : hok h -> nth_error h i = Some c -> cell_num c <> TERM_NUM \/ exists a, c = CTerm a.
  Proof.
    intros Hh H. destruct c; [eauto|]. left. apply (h_node h Hh) in H as [H _]. cbn. pose proof NB_TERM. lia.
  Qed.
  Lemma child_lt h i n r j : child_ok h i n r -> r = Some j -> (j < List.length h)%nat.
  Proof. intros H ->. destruct H as [_ [c [H _]]]. apply nth_error_Some. congruence. Qed.

  Lemma hok_snoc h c : hok h -> cell_good h c -> (forall j x, nth_error h j = Some x -> cell_eqb c x = false) -> hok (h ++ [c]).
  Proof.
    intros Hh Hc Hnew.
    assert (He : ext h (h ++ [c])) by (exists [c]; reflexivity).
    assert (Hsplit : forall i x, nth_error (h ++ [c]) i = Some x -> nth_error h i = Some x \/ (i = List.length h /\ x = c)).
    { intros i x H. destruct (Nat.lt_ge_cases i (List.length h)).
      - left. now rewrite nth_error_app1 in H.
      - right. rewrite nth_error_app2 in H by auto. destruct (i - List.length h)%nat as [|k] eqn:E; [|destruct k; discriminate].
        split; [lia|]. cbn in H. congruence. }
    assert (Hchild : forall i n r, child_ok h i n r -> child_ok (h ++ [c]) i n r).
    { intros i n [j|]; [|auto]. intros [H1 [d [H2 H3]]]. split; [auto|]. exists d. split; [|auto]. eapply ext_nth; eauto. }
    assert (Hhn : forall i n r, child_ok h i n r -> hn_of (h ++ [c]) r = hn_of h r).
    { intros i n [j|]; [|auto]. intros [H1 [d [H2 H3]]]. cbn. now rewrite (ext_nth _ _ _ _ He H2), H2. }
    constructor.
    - eapply ext_nth; eauto. apply Hh.
    - intros i n z o hn H. apply Hsplit in H as [H|[-> <-]].
      + destruct (h_node h Hh _ _ _ _ _ H) as [H1 [H2 [H3 [H4 H5]]]].
        rewrite (Hhn _ _ _ H3), (Hhn _ _ _ H4). repeat split; auto; lia.
      + destruct Hc as [H1 [H2 [H3 [H4 H5]]]]. rewrite (Hhn _ _ _ H3), (Hhn _ _ _ H4). repeat split; auto; lia.
    - intros i j x y Hi Hj E. apply Hsplit in Hi as [Hi|[-> ->]], Hj as [Hj|[-> ->]].
      + eapply (h_uniq h Hh); eauto.
      + rewrite Hnew with (j := i) (x := x) in E; [discriminate|auto] ||
          (apply cell_eqb_sym in E; [|now apply (hok_num h i)|now apply (good_num h)]; rewrite (Hnew i x Hi) in E; discriminate).
      + rewrite (Hnew j y Hj) in E. discriminate.
      + reflexivity.
  Qed.

  Lemma check_ncache_ok c s : sok s -> cell_good (heap s) c ->
    exists i s' hc, check_ncache A_eq_dec c s = (Some i, s') /\ sok s' /\ ext (heap s) (heap s') /\
      nth_error (heap s') i = Some hc /\ cell_eqb c hc = true.
  Proof.
    intros Hs Hc. unfold check_ncache. destruct (find_cell A_eq_dec c (heap s) 0) as [i|] eqn:E.
    - apply find_cell_some in E as [j [x [-> [H1 H2]]]]. exists j, s, x. cbn. split; [auto|]. split; [auto|]. split; [apply ext_refl|auto].
    - assert (Hn := find_cell_none _ _ _ E). exists (List.length (heap s)). eexists. exists c. split; [reflexivity|].
      assert (He : ext (heap s) (heap s ++ [c])) by (exists [c]; reflexivity).
      split; [apply sok_ext; auto; apply hok_snoc; auto; apply Hs|]. cbn [heap]. split; [auto|].
      split; [|apply cell_eqb_refl]. rewrite nth_error_app2, Nat.sub_diag by lia. reflexivity.
  Qed.

  (** *** new_node and check_ncache_rm_dup *)
  Lemma ref_hn_ok s r b : hok (heap s) -> rep (heap s) r b -> ref_hn s r = Ok (hn_of (heap s) r).
  Proof.
    intros Hh Hr. destruct r as [i|]; [|reflexivity]. apply rep_cell in Hr as [_ [c [E _]]].
    cbn. unfold deref. rewrite E. reflexivity.
  Qed.
  Lemma rep_child h n r b : rep h r b -> bdd_wf (n + 1) b -> 0 <= n < NB -> child_ok h (List.length h) n r.
  Proof.
    intros Hr Hw Hn. destruct r as [i|]; [|exact Logic.I]. apply rep_cell in Hr as [Hne [c [E [En _]]]]. split.
    - apply nth_error_Some. congruence.
    - exists c. split; [auto|]. rewrite En. destruct b; cbn [tnum]; [congruence| |].
      + pose proof NB_TERM. lia.
      + destruct Hw as [Hw _]. lia.
  Qed.
  Lemma new_node_ok n z o bz bo s : sok s -> rep (heap s) z bz -> rep (heap s) o bo -> bz <> bo ->
    0 <= n < NB -> bdd_wf (n + 1) bz -> bdd_wf (n + 1) bo ->
    exists c, new_node A_eq_dec n z o s = Ok c /\ c = CNode n z o (hn_of (heap s) z || hn_of (heap s) o) /\ cell_good (heap s) c.
  Proof.
    intros Hs Hz Ho Hne Hn Wz Wo. assert (Hh := s_heap s Hs).
    assert (Hzo : z <> o) by (intros E; apply Hne; now apply (rep_eq _ Hh _ _ _ _ Hz Ho)).
    eexists. split; [|split; [reflexivity|]].
    - unfold new_node. rewrite (ref_hn_ok s z bz), (ref_hn_ok s o bo) by auto.
      destruct z as [i|]; [|reflexivity]. destruct o as [j|]; [|reflexivity].
      destruct (rep_cell _ _ _ Hz) as [_ [c [Ec _]]], (rep_cell _ _ _ Ho) as [_ [d [Ed _]]].
      unfold deref. rewrite Ec, Ed. cbn [rbind]. destruct (cell_eqb c d) eqn:E; [|reflexivity].
      exfalso. apply Hzo. f_equal. eapply (h_uniq _ Hh); eauto.
    - cbn [cell_good]. split; [auto|]. split; [auto|]. split; [eapply rep_child; eauto|]. split; [eapply rep_child; eauto|reflexivity].
  Qed.
  Lemma keep_node n z o bz bo s : sok s -> rep (heap s) z bz -> rep (heap s) o bo -> bz <> bo ->
    0 <= n < NB -> bdd_wf (n + 1) bz -> bdd_wf (n + 1) bo ->
    exists c r s', new_node A_eq_dec n z o s = Ok c /\ check_ncache A_eq_dec c s = (r, s') /\ sok s' /\
      ext (heap s) (heap s') /\ rep (heap s') r (BNode n bz bo).
  Proof.
    intros Hs Hz Ho Hne Hn Wz Wo. destruct (new_node_ok n z o bz bo s) as [c [E [Ec Hg]]]; auto.
    destruct (check_ncache_ok c s Hs Hg) as [i [s' [hc [E2 [Hs' [He [Hi Heq]]]]]]].
    exists c, (Some i), s'. split; [auto|]. split; [auto|]. split; [auto|]. split; [auto|].
    rewrite Ec in Heq. apply cell_eqb_node in Heq as [hn ->]; [|pose proof NB_TERM; lia].
    econstructor; eauto using rep_ext.
  Qed.
  Lemma rm_dup_ok n z o bz bo s : sok s -> rep (heap s) z bz -> rep (heap s) o bo ->
    (bz = bo \/ 0 <= n < NB /\ bdd_wf (n + 1) bz /\ bdd_wf (n + 1) bo) ->
    exists r s', check_ncache_rm_dup A_eq_dec n z o s = Ok (r, s') /\ sok s' /\ ext (heap s) (heap s') /\
      rep (heap s') r (mk n bz bo).
  Proof.
    intros Hs Hz Ho Hw. assert (Hh := s_heap s Hs). unfold check_ncache_rm_dup, Bdd.mk.
    destruct (ref_eq_dec z o) as [E|NE].
    - exists z, s. split; [reflexivity|]. split; [auto|]. split; [apply ext_refl|].
      apply (rep_eq _ Hh _ _ _ _ Hz Ho) in E. destruct bdd_eq_dec; congruence.
    - assert (Hne : bz <> bo) by (intros E; apply NE; now apply (rep_eq _ Hh _ _ _ _ Hz Ho)).
      destruct Hw as [Hw|[Hn [Wz Wo]]]; [congruence|].
      destruct (keep_node n z o bz bo s) as [c [r [s' [E1 [E2 [H1 [H2 H3]]]]]]]; auto.
      rewrite E1. cbn [rbind]. rewrite E2. exists r, s'. split; [reflexivity|]. split; [auto|]. split; [auto|].
      destruct bdd_eq_dec; [congruence|auto].
  Qed.

  (** *** The operations on trees, in the shape of the code *)
  Definition tstop (op : opk) (a b : bdd) : option bdd :=
    match op with
    | Merge => match a, b with BNone, _ => Some b | _, BNone => Some a | _, _ => if has_none a then None else Some a end
    | Diff => if bdd_eq_dec A_eq_dec a b then Some BNone else
              match a, b with
              | BNone, _ => Some (BTerm differs) | BTerm _, BNone => Some (BTerm differs)
              | BTerm _, BTerm _ => Some (BTerm differs) | _, _ => None
              end
    | Sub => if bdd_eq_dec A_eq_dec a b then Some BNone else
             match a, b with BNone, _ => Some BNone | _, BNone => Some a | BTerm _, BTerm _ => Some a | _, _ => None end
    | Inter => match a, b with
               | BNone, _ => Some BNone | _, BNone => Some BNone
               | _, _ => if bdd_eq_dec A_eq_dec a b then Some a else None
               end
    end.
  Definition tsplit (a b : bdd) : Z * (bdd * bdd) * (bdd * bdd) :=
    match b with
    | BNone => (tnum a, (tzero a, BNone), (tone a, BNone))
    | _ => if tnum a =? tnum b then (tnum a, (tzero a, tzero b), (tone a, tone b))
           else if tnum a <? tnum b then (tnum a, (tzero a, b), (tone a, b))
           else (tnum b, (a, tzero b), (a, tone b))
    end.
  Lemma pure_eq op a b lo : bdd_wf lo a -> bdd_wf lo b -> pure op a b =
    match tstop op a b with
    | Some r => r
    | None => let '(n, (a0, b0), (a1, b1)) := tsplit a b in mk n (pure op a0 b0) (pure op a1 b1)
    end.
  Proof.
    intros Ha Hb. pose proof NB_TERM as HT.
    assert (Hlt : forall n, n < NB -> (n =? TERM_NUM) = false /\ (n <? TERM_NUM) = true /\ (TERM_NUM =? n) = false /\ (TERM_NUM <? n) = false) by lia.
    destruct op; destruct a as [|x|na az ao], b as [|y|nb bz bo]; try reflexivity;
      try (pose proof (proj1 Ha) as Hna; destruct (Hlt na) as [X1 [X2 [X3 X4]]]; [lia|]);
      try (pose proof (proj1 Hb) as Hnb; destruct (Hlt nb) as [Y1 [Y2 [Y3 Y4]]]; [lia|]);
      cbn [pure tstop tsplit tnum tzero tone]; rewrite ?X1, ?X2, ?X3, ?X4, ?Y1, ?Y2, ?Y3, ?Y4.
    all: try (rewrite meld_nt; destruct (has_none _); reflexivity).
    all: try (rewrite meld_nn; destruct (has_none _); cbn [negb]; [|reflexivity];
              destruct (na =? nb); [reflexivity|]; destruct (na <? nb); reflexivity).
    all: try (rewrite difference_eq; destruct bdd_eq_dec; try reflexivity; destruct (na =? nb); [reflexivity|]; destruct (na <? nb); reflexivity).
    all: try (rewrite difference_eq; destruct bdd_eq_dec; reflexivity).
    all: try (rewrite intersection_nn; destruct bdd_eq_dec; [reflexivity|]; destruct (na =? nb); [reflexivity|]; destruct (na <? nb); reflexivity).
    all: try (rewrite intersection_tn; destruct bdd_eq_dec; reflexivity).
    all: try (cbn [Bdd.subtract]; destruct bdd_eq_dec; try reflexivity; destruct (na =? nb); [reflexivity|]; destruct (na <? nb); reflexivity).
    all: try (cbn [Bdd.subtract]; destruct bdd_eq_dec; reflexivity).
    all: try (cbn [Bdd.intersection]; destruct bdd_eq_dec; try reflexivity; rewrite ?Z.eqb_refl; reflexivity).
  Qed.

  Lemma pure_wf op a b lo : bdd_wf lo a -> bdd_wf lo b -> bdd_wf lo (pure op a b).
  Proof. destruct op; intros Ha Hb; [apply meld_wf|apply difference_wf|apply subtract_wf|apply intersection_wf]; auto. Qed.

  Lemma rep_term_iff h i b c : rep h (Some i) b -> hok h -> nth_error h i = Some c -> is_term c = match b with BTerm _ => true | _ => false end.
  Proof.
    intros H Hh E. inversion H as [|j a E'|j n zr or hn bz bo E' Hz Ho]; subst; rewrite E in E'; injection E' as ->.
    - reflexivity.
    - unfold is_term. cbn [cell_num]. destruct (h_node h Hh _ _ _ _ _ E) as [Hn _]. pose proof NB_TERM. lia.
  Qed.

  Lemma op_stop_ok op a b ta tb s : sok s -> rep (heap s) a ta -> rep (heap s) b tb ->
    exists x, op_stop A_eq_dec op a b s = Ok x /\
    match x, tstop op ta tb with Some r, Some t => rep (heap s) r t | None, None => True | _, _ => False end.
  Proof.
    intros Hs Ha Hb. assert (Hh := s_heap s Hs).
    assert (Hd : rep (heap s) IS_DIFFERING (BTerm differs)) by (constructor; apply Hh).
    assert (Hab := rep_eq _ Hh _ _ _ _ Ha Hb).
    unfold op_stop. destruct op.
    - destruct a as [i|]; [|inversion Ha; subst; exists (Some b); auto].
      destruct b as [j|]; [|inversion Hb; subst; exists (Some (Some i)); split; [auto|]; inversion Ha; subst; auto].
      assert (Hn := rep_hn _ Hh _ _ Ha). cbn [hn_of] in Hn.
      destruct (rep_cell _ _ _ Ha) as [Na [c [Ec _]]]. destruct (rep_cell _ _ _ Hb) as [Nb _].
      unfold deref. rewrite Ec in *. cbn [rbind]. eexists. split; [reflexivity|]. rewrite Hn.
      destruct ta, tb; try congruence; cbn [tstop]; destruct (has_none _); auto.
    - destruct (ref_eq_dec a b) as [E|NE].
      + exists (Some None). split; [reflexivity|]. cbn [tstop]. destruct bdd_eq_dec as [_|N]; [constructor|]. exfalso. apply N. now apply Hab.
      + assert (Hne : ta <> tb) by (intros X; apply NE; now apply Hab).
        destruct a as [i|]; [|inversion Ha; subst; exists (Some IS_DIFFERING); split; [auto|]; cbn [tstop]; destruct bdd_eq_dec; [congruence|auto]].
        destruct (rep_cell _ _ _ Ha) as [Na [c [Ec _]]]. assert (Tc := rep_term_iff _ _ _ _ Ha Hh Ec).
        destruct b as [j|].
        * destruct (rep_cell _ _ _ Hb) as [Nb [d [Ed _]]]. assert (Td := rep_term_iff _ _ _ _ Hb Hh Ed).
          unfold deref. rewrite Ec, Ed. cbn [rbind]. eexists. split; [reflexivity|]. rewrite Tc, Td.
          cbn [tstop]. destruct bdd_eq_dec; [congruence|]. destruct ta, tb; try congruence; cbn [andb]; auto.
        * inversion Hb; subst. unfold deref. rewrite Ec. cbn [rbind]. eexists. split; [reflexivity|]. rewrite Tc.
          cbn [tstop]. destruct bdd_eq_dec; [congruence|]. destruct ta; try congruence; auto.
    - destruct (ref_eq_dec a b) as [E|NE].
      + exists (Some None). split; [reflexivity|]. cbn [tstop]. destruct bdd_eq_dec as [_|N]; [constructor|]. exfalso. apply N. now apply Hab.
      + assert (Hne : ta <> tb) by (intros X; apply NE; now apply Hab).
        destruct a as [i|]; [|inversion Ha; subst; exists (Some None); split; [auto|]; cbn [tstop]; destruct bdd_eq_dec; [congruence|auto]].
        destruct (rep_cell _ _ _ Ha) as [Na [c [Ec _]]]. assert (Tc := rep_term_iff _ _ _ _ Ha Hh Ec).
        destruct b as [j|].
        * destruct (rep_cell _ _ _ Hb) as [Nb [d [Ed _]]]. assert (Td := rep_term_iff _ _ _ _ Hb Hh Ed).
          unfold deref. rewrite Ec, Ed. cbn [rbind]. eexists. split; [reflexivity|]. rewrite Tc, Td.
          cbn [tstop]. destruct bdd_eq_dec; [congruence|]. destruct ta, tb; try congruence; cbn [andb]; auto.
        * inversion Hb; subst. eexists. split; [reflexivity|].
          cbn [tstop]. destruct bdd_eq_dec; [congruence|]. destruct ta; try congruence; auto.
    - destruct a as [i|]; [|inversion Ha; subst; exists (Some None); split; [auto|]; cbn [tstop]; constructor].
      destruct (rep_cell _ _ _ Ha) as [Na [c [Ec _]]].
      destruct b as [j|]; [|inversion Hb; subst; exists (Some None); split; [auto|]; destruct ta; cbn [tstop]; constructor].
      destruct (rep_cell _ _ _ Hb) as [Nb [d [Ed _]]].
      unfold deref. rewrite Ec, Ed. cbn [rbind]. eexists. split; [reflexivity|].
      assert (E : cell_eqb c d = if bdd_eq_dec A_eq_dec ta tb then true else false).
      { destruct (bdd_eq_dec A_eq_dec ta tb) as [E|NE].
        - apply Hab in E. injection E as <-. rewrite Ec in Ed. injection Ed as <-. now rewrite cell_eqb_refl.
        - destruct (cell_eqb c d) eqn:E; [|reflexivity]. exfalso. apply NE, Hab. f_equal. eapply (h_uniq _ Hh); eauto. }
      rewrite E. destruct ta, tb; try congruence; cbn [tstop]; destruct bdd_eq_dec; auto.
  Qed.

  (** The recursion, one level unfolded. *)
  Definition split_h (a b : ref) (s : st) : result (Z * (ref * ref) * (ref * ref)) :=
    match a, b with
    | Some i, Some j =>
      do c <- deref s i; do d <- deref s j;
      if cell_num c =? cell_num d then
        Ok (cell_num c, (cell_zero c, cell_zero d), (cell_one c, cell_one d))
      else if cell_num c <? cell_num d then
        if cell_num c <? TERM_NUM then Ok (cell_num c, (cell_zero c, b), (cell_one c, b))
        else Err AssertionError
      else
        if cell_num d <? TERM_NUM then Ok (cell_num d, (a, cell_zero d), (a, cell_one d))
        else Err AssertionError
    | Some i, None =>
      do c <- deref s i; Ok (cell_num c, (cell_zero c, None), (cell_one c, None))
    | None, _ => Err AttributeError
    end.
  Ltac spl := do 9 eexists; split; [reflexivity|]; split; [reflexivity|]; split; [eassumption|]; split; [first [eassumption|constructor]|];
    split; [eassumption|]; split; [first [eassumption|constructor]|].
  (** The two halves of a split are represented, and shallower unless both are terminals. *)
  Lemma split_ok op a b ta tb s lo : sok s -> rep (heap s) a ta -> rep (heap s) b tb ->
    bdd_wf lo ta -> bdd_wf lo tb -> tstop op ta tb = None ->
    exists n a0 b0 a1 b1 ta0 tb0 ta1 tb1,
      split_h a b s = Ok (n, (a0, b0), (a1, b1)) /\ tsplit ta tb = (n, (ta0, tb0), (ta1, tb1)) /\
      rep (heap s) a0 ta0 /\ rep (heap s) b0 tb0 /\ rep (heap s) a1 ta1 /\ rep (heap s) b1 tb1 /\
      ((ta0 = BNone /\ tb0 = BNone /\ ta1 = BNone /\ tb1 = BNone) \/
       (lo <= n < NB /\ bdd_wf (n + 1) ta0 /\ bdd_wf (n + 1) tb0 /\ bdd_wf (n + 1) ta1 /\ bdd_wf (n + 1) tb1)).
  Proof.
    intros Hs Ha Hb Wa Wb Hstop. pose proof NB_TERM as HT.
    assert (Hna : ta <> BNone).
    { intros ->. destruct op; cbn [tstop] in Hstop; try destruct bdd_eq_dec; discriminate. }
    destruct a as [i|]; [|inversion Ha; congruence].
    destruct (rep_cell _ _ _ Ha) as [_ [c [Ec [Nc [Zc Oc]]]]].
    destruct b as [j|].
    - destruct (rep_cell _ _ _ Hb) as [Hnb [d [Ed [Nd [Zd Od]]]]].
      unfold split_h, deref. rewrite Ec, Ed. cbn [rbind]. rewrite Nc, Nd.
      unfold tsplit. destruct tb as [|y|nb bz bo]; [congruence| |]; destruct ta as [|x|na az ao]; try congruence; cbn [tnum tzero tone] in *.
      + rewrite Z.eqb_refl. spl. left. auto.
      + destruct Wa as [Hn [_ [W1 W2]]]. destruct (Z.eqb_spec na TERM_NUM) as [X|_]; [lia|]. destruct (Z.ltb_spec na TERM_NUM) as [_|X]; [|lia].
        spl. right. cbn [bdd_wf]. repeat split; auto; lia.
      + destruct Wb as [Hn [_ [W1 W2]]]. destruct (Z.eqb_spec TERM_NUM nb) as [X|_]; [lia|]. destruct (Z.ltb_spec TERM_NUM nb) as [X|_]; [lia|].
        destruct (Z.ltb_spec nb TERM_NUM) as [_|X]; [|lia]. spl. right. cbn [bdd_wf]. repeat split; auto; lia.
      + pose proof Wa as [Hn [Q1 [W1 W2]]]. pose proof Wb as [Hm [Q2 [V1 V2]]]. destruct (Z.eqb_spec na nb) as [->|X].
        * spl. right. repeat split; auto; lia.
        * destruct (Z.ltb_spec na nb) as [L|L].
          -- destruct (Z.ltb_spec na TERM_NUM) as [_|Y]; [|lia]. spl. right.
             assert (bdd_wf (na + 1) (BNode nb bz bo)) by (split; [lia|auto]). repeat split; auto; lia.
          -- destruct (Z.ltb_spec nb TERM_NUM) as [_|Y]; [|lia]. spl. right.
             assert (bdd_wf (nb + 1) (BNode na az ao)) by (split; [lia|auto]). repeat split; auto; lia.
    - inversion Hb; subst. unfold split_h, deref. rewrite Ec. cbn [rbind tsplit]. rewrite Nc.
      spl. destruct ta as [|x|na az ao]; [congruence| |]; cbn [tzero tone tnum].
      + left. auto.
      + destruct Wa as [Hn [_ [W1 W2]]]. right. cbn [bdd_wf]. repeat split; auto; lia.
  Qed.

  Lemma pure_none op : pure op BNone BNone = BNone.
  Proof. destruct op; cbn [pure]; try reflexivity. Qed.

End P.

Section P2.
  Context {A : Type} (A_eq_dec : forall x y : A, {x = y} + {x <> y}) (differs : A).
  Context (opol : nat -> okey -> list (okey * ref) -> list (okey * ref)).
  Context (rpol : nat -> rkey -> list (rkey * ref) -> list (rkey * ref)).
  Hypothesis opol_incl : forall t k l, incl (opol t k l) l.
  Hypothesis rpol_incl : forall t k l, incl (rpol t k l) l.
  Notation cell := (cell A). Notation st := (st A). Notation bdd := (bdd A).
  Notation mk := (mk A_eq_dec).
  Notation cell_eqb := (cell_eqb A_eq_dec).
  Notation sok := (sok A_eq_dec differs).
  Notation pure := (pure A_eq_dec differs).
  Notation tstop := (tstop A_eq_dec differs).

  Lemma ocache_get_ok op a b ta tb s : sok s -> rep (heap s) a ta -> rep (heap s) b tb ->
    forall c s', ocache_get opol (op, a, b) s = (c, s') ->
    sok s' /\ heap s' = heap s /\ match c with Some _ => rep (heap s) c (pure op ta tb) | None => True end.
  Proof.
    intros Hs Ha Hb c s' [= <- <-]. split; [|split; [reflexivity|]].
    - destruct Hs as [H1 H2 H3]. constructor; cbn [heap ocache rcache]; auto. intros op' a' b' r Hin.
      apply (opol_incl _ _ _) in Hin. auto.
    - destruct (assoc okey_eq_dec (op, a, b) (ocache s)) as [r|] eqn:E; [|auto]. destruct r as [i|]; [|auto].
      apply assoc_in in E. destruct (s_ocache _ _ s Hs _ _ _ _ E) as [ta' [tb' [Ra [Rb R]]]].
      rewrite (rep_fun _ _ _ Ha _ Ra), (rep_fun _ _ _ Hb _ Rb). exact R.
  Qed.
  Lemma ocache_set_ok op a b ta tb r s : sok s -> rep (heap s) a ta -> rep (heap s) b tb ->
    rep (heap s) r (pure op ta tb) -> sok (ocache_set opol (op, a, b) r s) /\ heap (ocache_set opol (op, a, b) r s) = heap s.
  Proof.
    intros Hs Ha Hb Hr. split; [|reflexivity]. destruct Hs as [H1 H2 H3]. constructor; cbn [heap ocache rcache ocache_set]; auto.
    intros op' a' b' r' Hin. apply (opol_incl _ _ _) in Hin. destruct Hin as [[= -> -> -> ->]|Hin]; [eauto|].
    apply filter_In in Hin as [Hin _]. eauto.
  Qed.

  Lemma op_rec_S f op a b s : op_rec A_eq_dec opol (S f) op a b s =
    do stop <- op_stop A_eq_dec op a b s;
    match stop with
    | Some r => Ok (r, s)
    | None =>
      let (cached, s) := ocache_get opol (op, a, b) s in
      match cached with
      | Some _ => Ok (cached, s)
      | None =>
        do (num, (a0, b0), (a1, b1)) <- split_h a b s;
        do (r0, s) <- op_rec A_eq_dec opol f op a0 b0 s;
        do (r1, s) <- op_rec A_eq_dec opol f op a1 b1 s;
        do (r, s) <- check_ncache_rm_dup A_eq_dec num r0 r1 s;
        Ok (r, ocache_set opol (op, a, b) r s)
      end
    end.
  Proof. reflexivity. Qed.

  Theorem op_rec_ok op : forall f a b ta tb s lo, sok s -> rep (heap s) a ta -> rep (heap s) b tb ->
    bdd_wf lo ta -> bdd_wf lo tb -> (0 <= lo <= NB /\ (Z.to_nat (NB - lo) + 2 <= f)%nat \/ ta = BNone /\ tb = BNone /\ (1 <= f)%nat) ->
    exists r s', op_rec A_eq_dec opol f op a b s = Ok (r, s') /\ sok s' /\ ext (heap s) (heap s') /\
      rep (heap s') r (pure op ta tb).
  Proof.
    induction f as [|f IH]; intros a b ta tb s lo Hs Ha Hb Wa Wb Hf; [lia|].
    rewrite op_rec_S. destruct (op_stop_ok A_eq_dec differs op a b ta tb s) as [x [-> Hx]]; auto. cbn [rbind].
    rewrite (pure_eq A_eq_dec differs op ta tb lo) by auto. destruct x as [r|].
    - destruct (tstop op ta tb) as [t|]; [|contradiction]. exists r, s. split; [auto|]. split; [auto|]. split; [apply ext_refl|auto].
    - destruct (tstop op ta tb) as [t|] eqn:Estop; [contradiction|].
      assert (Epure := pure_eq A_eq_dec differs op ta tb lo Wa Wb). rewrite Estop in Epure.
      assert (Hf' : 0 <= lo <= NB /\ (Z.to_nat (NB - lo) + 2 <= S f)%nat).
      { destruct Hf as [Hf|[-> [-> _]]]; [auto|]. destruct op; cbn [BddHeapProofs.tstop] in Estop; try destruct bdd_eq_dec; congruence. }
      destruct (ocache_get opol (op, a, b) s) as [c s1] eqn:Eg.
      destruct (ocache_get_ok op a b ta tb s Hs Ha Hb c s1 Eg) as [Hs1 [Hh1 Hc]].
      destruct c as [i|].
      + exists (Some i), s1. rewrite Hh1. rewrite Epure in Hc. split; [auto|]. split; [auto|]. split; [apply ext_refl|exact Hc].
      + rewrite <- Hh1 in Ha, Hb.
        destruct (split_ok A_eq_dec differs op a b ta tb s1 lo) as [n [a0 [b0 [a1 [b1 [ta0 [tb0 [ta1 [tb1 [-> [Et [Ra0 [Rb0 [Ra1 [Rb1 Hw]]]]]]]]]]]]]]]; auto.
        cbn [rbind]. rewrite Et in Epure |- *.
        assert (Hw0 : bdd_wf (n + 1) ta0 /\ bdd_wf (n + 1) tb0 /\ bdd_wf (n + 1) ta1 /\ bdd_wf (n + 1) tb1).
        { destruct Hw as [[-> [-> [-> ->]]]|[_ Hw]]; cbn [bdd_wf]; auto. }
        destruct Hw0 as [W1 [W2 [W3 W4]]].
        destruct (IH a0 b0 ta0 tb0 s1 (n + 1)) as [r0 [s2 [-> [Hs2 [He2 Hr0]]]]]; auto.
        { destruct Hw as [[-> [-> _]]|[Hw _]]; [right; repeat split; lia|left; lia]. }
        cbn [rbind].
        destruct (IH a1 b1 ta1 tb1 s2 (n + 1)) as [r1 [s3 [-> [Hs3 [He3 Hr1]]]]]; eauto using rep_ext.
        { destruct Hw as [[_ [_ [-> ->]]]|[Hw _]]; [right; repeat split; lia|left; lia]. }
        cbn [rbind].
        destruct (rm_dup_ok A_eq_dec differs n r0 r1 (pure op ta0 tb0) (pure op ta1 tb1) s3) as [r [s4 [-> [Hs4 [He4 Hr]]]]]; eauto using rep_ext.
        { destruct Hw as [[-> [-> [-> ->]]]|[Hw _]]; [left; auto|]. right. split; [lia|]. split; apply pure_wf; auto. }
        cbn [rbind]. assert (He : ext (heap s1) (heap s4)) by eauto using ext_trans.
        destruct (ocache_set_ok op a b ta tb r s4) as [Hs5 Hh5]; eauto using rep_ext. { now rewrite Epure. }
        exists r. eexists. split; [reflexivity|]. split; [exact Hs5|]. rewrite Hh5, <- Hh1. auto.
  Qed.

  (** *** wc_to_BDD *)
  Lemma wc_steps_ok wc act : zfree wc -> forall k s t, Z.of_nat k <= NB -> sok s -> rep (heap s) (Some t) (BTerm act) ->
    exists r s' b, rfold_l (wc_step_h A_eq_dec wc) (@pair ref st (Some t) s) (seqZ k) = Ok (r, s') /\ sok s' /\ ext (heap s) (heap s') /\
      rfold_l (wc_to_BDD_step wc) (BTerm act) (seqZ k) = Ok b /\ rep (heap s') r b.
  Proof.
    intros Hz k s t Hk Hs Ht. induction k as [|k IH].
    - exists (Some t), s, (BTerm act). split; [reflexivity|]. split; [auto|]. split; [apply ext_refl|]. split; [reflexivity|auto].
    - destruct IH as [r [s' [b [E1 [Hs' [He [E2 Hr]]]]]]]; [lia|].
      destruct (wc_to_BDD_prefix A_eq_dec wc act Hz k) as [b' [E3 [Nb [Wb _]]]]; [lia|]. rewrite E2 in E3. injection E3 as <-.
      rewrite seqZ_snoc, !rfold_l_app, E1, E2. cbn [rbind rfold_l].
      assert (Hn : 0 <= NB - 1 - Z.of_nat k < NB) by lia.
      assert (Wb' : bdd_wf (NB - 1 - Z.of_nat k + 1) b) by (replace (NB - 1 - Z.of_nat k + 1) with (NB - Z.of_nat k) by lia; auto).
      unfold wc_step_h, wc_to_BDD_step. rewrite wc_bit_spec by lia.
      destruct (Z.testbit wc (2 * Z.of_nat k)) eqn:B0, (Z.testbit wc (2 * Z.of_nat k + 1)) eqn:B1; cbn [Z.add Z.eqb Pos.add Pos.eqb].
      + exists r, s', b. cbn [rbind rfold_l]. auto.
      + destruct (keep_node A_eq_dec differs (NB - 1 - Z.of_nat k) r None b BNone s') as [c [r' [s'' [F1 [F2 [F3 [F4 F5]]]]]]]; auto; [constructor|exact Logic.I|].
        rewrite F1. cbn [rbind]. rewrite F2. exists r', s''. eexists. split; [reflexivity|]. split; [auto|]. split; [eauto using ext_trans|]. split; [reflexivity|auto].
      + destruct (keep_node A_eq_dec differs (NB - 1 - Z.of_nat k) None r BNone b s') as [c [r' [s'' [F1 [F2 [F3 [F4 F5]]]]]]]; auto; [constructor|exact Logic.I|].
        rewrite F1. cbn [rbind]. rewrite F2. exists r', s''. eexists. split; [reflexivity|]. split; [auto|]. split; [eauto using ext_trans|]. split; [reflexivity|auto].
      + destruct (Hz (Z.of_nat k)) as [X|X]; [lia|congruence|congruence].
  Qed.

  Lemma wc_to_BDD_h_ok wc act s : sok s -> wc = 0 \/ wc_ok wc ->
    exists r s' b, wc_to_BDD_h A_eq_dec rpol wc act s = Ok (r, s') /\ sok s' /\ ext (heap s) (heap s') /\
      wc_to_BDD wc act = Ok b /\ rep (heap s') r b.
  Proof.
    intros Hs Hwc. unfold wc_to_BDD_h. destruct (Z.eqb_spec wc 0) as [->|Hne].
    - exists None, s, BNone. split; [reflexivity|]. split; [auto|]. split; [apply ext_refl|]. split; [reflexivity|constructor].
    - destruct Hwc as [|Hok]; [congruence|]. destruct Hok as [Hrange Hz].
      destruct (check_ncache_ok A_eq_dec differs (CTerm act) s Hs Logic.I) as [t [s1 [hc [-> [Hs1 [He1 [Ht Heq]]]]]]].
      apply cell_eqb_term in Heq as ->.
      assert (Rt : rep (heap s1) (Some t) (BTerm act)) by now constructor.
      cbn [rcache_get fst snd]. cbv beta iota zeta. unfold rcache_get.
      set (s2 := mkst (heap s1) (ocache s1) (rpol (tick s1) (wc, t) (rcache s1)) (S (tick s1))).
      assert (Hs2 : sok s2).
      { destruct Hs1 as [H1 H2 H3]. constructor; cbn [s2 heap ocache rcache]; auto. intros wc' t' r Hin. apply (rpol_incl _ _ _) in Hin. auto. }
      destruct (assoc rkey_eq_dec (wc, t) (rcache s1)) as [[i|]|] eqn:E.
      + apply assoc_in in E. destruct (s_rcache _ _ s1 Hs1 _ _ _ E) as [act' [b [Rt' [Eb Rb]]]].
        assert (Ea := rep_fun _ _ _ Rt _ Rt'). injection Ea as <-.
        exists (Some i), s2, b. split; [reflexivity|]. auto.
      + destruct (wc_steps_ok wc act Hz (Z.to_nat NB) s2 t) as [r [s3 [b [Er [Hs3 [He3 [Eb Rb]]]]]]]; auto; [pose proof NB_pos; lia|]. rewrite Er.
        cbn [rbind]. assert (Eb' : wc_to_BDD wc act = Ok b) by (unfold wc_to_BDD; destruct (Z.eqb_spec wc 0); [congruence|exact Eb]).
        exists r. eexists. exists b. split; [reflexivity|]. split; [|split; [eapply ext_trans; eauto|auto]].
        destruct Hs3 as [H1 H2 H3]. constructor; cbn [rcache_set heap ocache rcache]; auto.
        intros wc' t' r' Hin. apply (rpol_incl _ _ _) in Hin. destruct Hin as [[= <- <- <-]|Hin].
        * exists act, b. split; [|auto]. eapply rep_ext; [exact He3|exact Rt].
        * apply filter_In in Hin as [Hin _]. eauto.
      + destruct (wc_steps_ok wc act Hz (Z.to_nat NB) s2 t) as [r [s3 [b [Er [Hs3 [He3 [Eb Rb]]]]]]]; auto; [pose proof NB_pos; lia|]. rewrite Er.
        cbn [rbind]. assert (Eb' : wc_to_BDD wc act = Ok b) by (unfold wc_to_BDD; destruct (Z.eqb_spec wc 0); [congruence|exact Eb]).
        exists r. eexists. exists b. split; [reflexivity|]. split; [|split; [eapply ext_trans; eauto|auto]].
        destruct Hs3 as [H1 H2 H3]. constructor; cbn [rcache_set heap ocache rcache]; auto.
        intros wc' t' r' Hin. apply (rpol_incl _ _ _) in Hin. destruct Hin as [[= <- <- <-]|Hin].
        * exists act, b. split; [|auto]. eapply rep_ext; [exact He3|exact Rt].
        * apply filter_In in Hin as [Hin _]. eauto.
  Qed.

  (** *** Programs *)
  Lemma sok_st0 : sok (st0 differs).
  Proof.
    constructor; cbn; try (intros; contradiction). constructor.
    - reflexivity.
    - intros [|i] n z o hn H; [discriminate|destruct i; discriminate].
    - intros [|i] [|j] c d Hi Hj; try reflexivity; try (destruct i; discriminate); destruct j; discriminate.
  Qed.

  (** The expression a command stands for, given those of the handles made so far. *)
  Definition eop (op : opk) (a b : bexpr A) : bexpr A :=
    match op with Merge => EAdd a b | Diff => EDifference a b | Sub => ESubtract a b | Inter => EIntersection a b end.
  Definition cexpr (es : list (bexpr A)) (c : cmd A) : bexpr A :=
    match c with
    | KEmpty => EEmpty
    | KWc wc act => EWc wc act
    | KOp op i j => eop op (nth i es EEmpty) (nth j es EEmpty)
    end.
  Fixpoint exprs (es : list (bexpr A)) (cs : list (cmd A)) : list (bexpr A) :=
    match cs with [] => es | c :: t => exprs (es ++ [cexpr es c]) t end.
  (** Proper wildcards; operations on handles that exist. *)
  Fixpoint cmds_ok (n : nat) (cs : list (cmd A)) : Prop :=
    match cs with
    | [] => True
    | c :: t => match c with
                | KEmpty => True
                | KWc wc _ => wc = 0 \/ wc_ok wc
                | KOp _ i j => (i < n)%nat /\ (j < n)%nat
                end /\ cmds_ok (S n) t
    end.

  Notation beval := (beval A_eq_dec differs).
  Definition handle_ok (h : list cell) (r : ref) (e : bexpr A) : Prop := bexpr_ok e /\ exists b, beval e = Ok b /\ rep h r b.
  Lemma handle_ext h h' r e : ext h h' -> handle_ok h r e -> handle_ok h' r e.
  Proof. intros He [H [b [E R]]]. split; [auto|]. exists b. eauto using rep_ext. Qed.
  Lemma handles_ext h h' hs es : ext h h' -> Forall2 (handle_ok h) hs es -> Forall2 (handle_ok h') hs es.
  Proof. intros He H. induction H; constructor; auto. eapply handle_ext; eauto. Qed.

  Lemma Forall2_nth {X Y} (R : X -> Y -> Prop) l l' d : Forall2 R l l' -> forall i, (i < List.length l)%nat ->
    exists x, nth_error l i = Some x /\ R x (nth i l' d).
  Proof.
    intros H. induction H as [|x y l l' Hxy H IH]; intros i Hi; [cbn in Hi; lia|]. destruct i as [|i]; [exists x; auto|].
    cbn in Hi. destruct (IH i) as [z [E R']]; [lia|]. exists z. auto.
  Qed.

  Lemma step_ok frames c hs s es : (Z.to_nat NB + 2 <= frames)%nat -> sok s -> Forall2 (handle_ok (heap s)) hs es ->
    cmds_ok (List.length hs) [c] -> exists r s', step A_eq_dec opol rpol frames c hs s = Ok (hs ++ [r], s') /\ sok s' /\
      ext (heap s) (heap s') /\ Forall2 (handle_ok (heap s')) (hs ++ [r]) (es ++ [cexpr es c]).
  Proof.
    intros Hf Hs Hh [Hc _]. destruct c as [|wc act|op i j]; cbn [step cexpr].
    - exists None, s. split; [auto|]. split; [auto|]. split; [apply ext_refl|]. apply Forall2_app; [auto|]. constructor; [|constructor].
      split; [exact Logic.I|]. exists BNone. split; [reflexivity|constructor].
    - destruct (wc_to_BDD_h_ok wc act s Hs Hc) as [r [s' [b [-> [Hs' [He [Eb Rb]]]]]]]. cbn [rbind].
      exists r, s'. split; [auto|]. split; [auto|]. split; [auto|]. apply Forall2_app; [eapply handles_ext; eauto|]. constructor; [|constructor].
      split; [exact Hc|]. exists b. auto.
    - destruct Hc as [Hi Hj].
      destruct (Forall2_nth _ _ _ EEmpty Hh i Hi) as [a [Ea [Oka [ta [Eta Ra]]]]].
      destruct (Forall2_nth _ _ _ EEmpty Hh j Hj) as [b [Eb [Okb [tb [Etb Rb]]]]].
      unfold get_handle. rewrite Ea, Eb. cbn [rbind].
      assert (Wa : bdd_wf 0 ta) by (eapply beval_wf; eauto). assert (Wb : bdd_wf 0 tb) by (eapply beval_wf; eauto).
      destruct (op_rec_ok op frames a b ta tb s 0) as [r [s' [-> [Hs' [He Rr]]]]]; auto. { left. pose proof NB_pos. lia. }
      cbn [rbind]. exists r, s'. split; [auto|]. split; [auto|]. split; [auto|].
      apply Forall2_app; [eapply handles_ext; eauto|]. constructor; [|constructor].
      assert (Ev : beval (eop op (nth i es EEmpty) (nth j es EEmpty)) = Ok (pure op ta tb))
        by (destruct op; cbn [eop BddApi.beval BddHeapProofs.pure]; rewrite Eta, Etb; reflexivity).
      split; [destruct op; split; auto|]. exists (pure op ta tb). auto.
  Qed.

  Theorem run_ok frames : (Z.to_nat NB + 2 <= frames)%nat -> forall cs hs s es, sok s -> Forall2 (handle_ok (heap s)) hs es ->
    cmds_ok (List.length hs) cs -> exists rs s', run A_eq_dec opol rpol frames cs hs s = Ok (hs ++ rs, s') /\ sok s' /\ ext (heap s) (heap s') /\
      Forall2 (handle_ok (heap s')) (hs ++ rs) (exprs es cs).
  Proof.
    intros Hf. induction cs as [|c cs IH]; intros hs s es Hs Hh Hc.
    - exists [], s. rewrite app_nil_r. split; [auto|]. split; [auto|]. split; [apply ext_refl|auto].
    - cbn [run exprs]. destruct Hc as [Hc1 Hc2]. destruct (step_ok frames c hs s es) as [r [s1 [-> [Hs1 [He1 Hh1]]]]]; auto. { split; [exact Hc1|exact Logic.I]. }
      cbn [rbind]. destruct (IH (hs ++ [r]) s1 (es ++ [cexpr es c])) as [rs [s2 [-> [Hs2 [He2 Hh2]]]]]; auto.
      { rewrite app_length, Nat.add_1_r. exact Hc2. }
      exists (r :: rs), s2. rewrite <- app_assoc in *. split; [auto|]. split; [auto|]. split; [eapply ext_trans; eauto|auto].
  Qed.
End P2.
