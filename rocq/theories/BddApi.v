(** Programs over the BDD API and the remaining lemmas used by PropBdd.v. *)
From Verif Require Import SpecBdd WildcardProofs MatchWcProofs BddProofs CuddProofs.
From Coq Require Import ZifyBool ZifyNat ZifyN.
Ltac Zify.zify_post_hook ::= Z.div_mod_to_equations.
Local Opaque NB.

(** An expression over the API of bdd.py: BDD(), wc_to_BDD, +, subtract, intersection,
    difference. *)
Inductive bexpr (A : Type) :=
| EEmpty
| EWc (wc : Z) (action : A)
| EAdd (a b : bexpr A)
| ESubtract (a b : bexpr A)
| EIntersection (a b : bexpr A)
| EDifference (a b : bexpr A).
Arguments EEmpty {A}. Arguments EWc {A}. Arguments EAdd {A}. Arguments ESubtract {A}.
Arguments EIntersection {A}. Arguments EDifference {A}.

  Lemma filter_unique {X} (f : X -> bool) l : (List.length (filter f l) <= 1)%nat ->
    forall i j x y, i <> j -> nth_error l i = Some x -> nth_error l j = Some y -> f x = true -> f y = true -> False.
  Proof.
    induction l as [|z l IH]; intros Hl i j x y Hij Hi Hj Hx Hy; [destruct i; discriminate|].
    cbn [filter] in Hl.
    assert (Hz : forall k w, nth_error l k = Some w -> f w = true -> (1 <= List.length (filter f l))%nat).
    { intros k w Hk Hw. apply nth_error_In in Hk. assert (Hin : In w (filter f l)) by (apply filter_In; auto).
      destruct (filter f l); [destruct Hin|cbn; lia]. }
    destruct i as [|i], j as [|j]; [congruence| | |].
    - cbn in Hi, Hj. injection Hi as ->. rewrite Hx in Hl. cbn [List.length] in Hl. specialize (Hz _ _ Hj Hy). lia.
    - cbn in Hi, Hj. injection Hj as ->. rewrite Hy in Hl. cbn [List.length] in Hl. specialize (Hz _ _ Hi Hx). lia.
    - cbn in Hi, Hj. apply (IH ltac:(destruct (f z); cbn in Hl; lia) i j x y); auto.
  Qed.

  Lemma list_of_hits {X} (l : list (Z * X)) (f : packet -> option X) :
    (forall p, map snd (hits l p) = match f p with Some a => [a] | None => [] end) ->
    (forall i j w x w' x' p, i <> j -> nth_error l i = Some (w, x) -> nth_error l j = Some (w', x') ->
       accepts w p -> accepts w' p -> False) /\
    (forall p a, f p = Some a <-> exists w, In (w, a) l /\ accepts w p).
  Proof.
    intros H. split.
    - intros i j w x w' x' p Hij Hi Hj Hw Hw'.
      apply (filter_unique (fun e => acceptsb (fst e) p) l) with (i := i) (j := j) (x := (w, x)) (y := (w', x')); auto.
      + specialize (H p). assert (E : List.length (map snd (hits l p)) = List.length (filter (fun e => acceptsb (fst e) p) l)) by (rewrite map_length; reflexivity).
        rewrite <- E, H. destruct (f p); cbn; lia.
      + now apply acceptsb_spec.
      + now apply acceptsb_spec.
    - intros p a. specialize (H p). split.
      + intros E. rewrite E in H. assert (Hin : In a (map snd (hits l p))) by (rewrite H; now left).
        apply in_map_iff in Hin as [[w x] [Ex Hx]]. cbn in Ex. subst x. exists w.
        unfold hits in Hx. apply filter_In in Hx as [H1 H2]. split; [auto|]. now apply acceptsb_spec.
      + intros [w [Hin Hw]]. assert (Hx : In a (map snd (hits l p))).
        { apply in_map_iff. exists (w, a). split; [reflexivity|]. apply filter_In. split; [auto|]. now apply acceptsb_spec. }
        rewrite H in Hx. destruct (f p); [destruct Hx as [->|[]]; reflexivity|destruct Hx].
  Qed.

Section Api.
  Context {A : Type} (A_eq_dec : forall x y : A, {x = y} + {x <> y}) (differs : A).

  Fixpoint beval (e : bexpr A) : result (bdd A) :=
    match e with
    | EEmpty => Ok BNone
    | EWc wc act => wc_to_BDD wc act
    | EAdd a b => do x <- beval a; do y <- beval b; Ok (meld A_eq_dec x y)
    | ESubtract a b => do x <- beval a; do y <- beval b; Ok (subtract A_eq_dec x y)
    | EIntersection a b => do x <- beval a; do y <- beval b; Ok (intersection A_eq_dec x y)
    | EDifference a b => do x <- beval a; do y <- beval b; Ok (difference A_eq_dec differs x y)
    end.

  (** Every wildcard used is 0 (the empty one) or proper. *)
  Fixpoint bexpr_ok (e : bexpr A) : Prop :=
    match e with
    | EEmpty => True
    | EWc wc _ => wc = 0 \/ wc_ok wc
    | EAdd a b | ESubtract a b | EIntersection a b | EDifference a b => bexpr_ok a /\ bexpr_ok b
    end.

  (** What an expression should mean, packet by packet. *)
  Fixpoint bmeans (e : bexpr A) (p : packet) (r : option A) : Prop :=
    match e with
    | EEmpty => r = None
    | EWc wc act => (accepts wc p -> r = Some act) /\ (~ accepts wc p -> r = None)
    | EAdd a b => exists x y, bmeans a p x /\ bmeans b p y /\ r = match x with Some _ => x | None => y end
    | ESubtract a b => exists x y, bmeans a p x /\ bmeans b p y /\ (x = y -> r = None) /\ (x <> y -> r = x)
    | EIntersection a b => exists x y, bmeans a p x /\ bmeans b p y /\ (x = y -> r = x) /\ (x <> y -> r = None)
    | EDifference a b => exists x y, bmeans a p x /\ bmeans b p y /\ (r = None \/ r = Some differs) /\
        (x <> y -> r = Some differs) /\ (x <> None -> x = y -> r = None)
    end.

  Lemma beval_total e : bexpr_ok e -> exists b, beval e = Ok b /\ bdd_wf 0 b /\ forall p, bmeans e p (denote b p).
  Proof.
    induction e as [|wc act|a IHa b IHb|a IHa b IHb|a IHa b IHb|a IHa b IHb]; intros H; cbn [beval].
    - exists BNone. cbn. auto.
    - destruct H as [->|H].
      + exists BNone. split; [reflexivity|]. split; [exact Logic.I|]. intros p. cbn. split; [|auto].
        intros H. now apply accepts_0 in H.
      + destruct (wc_to_BDD_ok A_eq_dec wc act H) as [b [E [W D]]]. exists b. auto.
    - destruct H as [Ha Hb]. destruct (IHa Ha) as [x [-> [Wx Dx]]], (IHb Hb) as [y [-> [Wy Dy]]]. cbn [rbind].
      eexists; split; [reflexivity|]. split; [now apply meld_wf|]. intros p. cbn [bmeans].
      exists (denote x p), (denote y p). rewrite meld_denote. unfold orelse. auto.
    - destruct H as [Ha Hb]. destruct (IHa Ha) as [x [-> [Wx Dx]]], (IHb Hb) as [y [-> [Wy Dy]]]. cbn [rbind].
      eexists; split; [reflexivity|]. split; [now apply subtract_wf|]. intros p. cbn [bmeans].
      exists (denote x p), (denote y p). rewrite subtract_denote. unfold minus_at. destruct opt_eq_dec; repeat split; auto; congruence.
    - destruct H as [Ha Hb]. destruct (IHa Ha) as [x [-> [Wx Dx]]], (IHb Hb) as [y [-> [Wy Dy]]]. cbn [rbind].
      eexists; split; [reflexivity|]. split; [now apply intersection_wf|]. intros p. cbn [bmeans].
      exists (denote x p), (denote y p). rewrite intersection_denote. unfold meet_at. destruct opt_eq_dec; repeat split; auto; congruence.
    - destruct H as [Ha Hb]. destruct (IHa Ha) as [x [-> [Wx Dx]]], (IHb Hb) as [y [-> [Wy Dy]]]. cbn [rbind].
      eexists; split; [reflexivity|]. split; [now apply difference_wf|]. intros p. cbn [bmeans].
      exists (denote x p), (denote y p). destruct (difference_denote A_eq_dec differs p x y) as [H1 [H2 H3]]. auto.
  Qed.

  Lemma beval_wf e b : beval e = Ok b -> bexpr_ok e -> bdd_wf 0 b.
  Proof. intros E H. destruct (beval_total e H) as [b' [E' [W _]]]. rewrite E in E'. now injection E' as ->. Qed.

  Lemma api_equality e1 e2 b1 b2 : bexpr_ok e1 -> bexpr_ok e2 -> beval e1 = Ok b1 -> beval e2 = Ok b2 ->
    (b1 = b2 <-> forall p, denote b1 p = denote b2 p).
  Proof. intros H1 H2 E1 E2. apply (denote_inj A_eq_dec 0); eapply beval_wf; eauto. Qed.

End Api.

Section Walk.
  Context {A : Type} (A_eq_dec : forall x y : A, {x = y} + {x <> y}).
  (** *** len: the distinct nodes, each once *)
  Fixpoint subnode (n b : bdd A) : Prop :=
    match b with
    | BNone => False
    | BTerm _ => n = b
    | BNode _ z o => n = b \/ subnode n z \/ subnode n o
    end.
  Lemma subnode_trans x y z : subnode x y -> subnode y z -> subnode x z.
  Proof.
    intros H. induction z as [|a|n z IHz o IHo]; cbn [subnode]; auto.
    - intros ->. auto.
    - intros [->|[H1|H1]]; auto.
  Qed.
  Lemma subnode_size x b : subnode x b -> (bsize x <= bsize b)%nat.
  Proof.
    induction b as [|a|n z IHz o IHo]; cbn [subnode bsize]; [tauto|intros ->; auto|].
    intros [->|[H|H]]; [auto| |]; [apply IHz in H|apply IHo in H]; lia.
  Qed.
  Definition closed_set (v : list (bdd A)) : Prop := forall x y, In x v -> subnode y x -> In y v.
  Lemma walk_spec (b : bdd A) : forall v, NoDup v -> closed_set v ->
    NoDup (walk A_eq_dec b v) /\ closed_set (walk A_eq_dec b v) /\
    (forall x, In x (walk A_eq_dec b v) <-> In x v \/ subnode x b).
  Proof.
    induction b as [|a|n z IHz o IHo]; intros v Hv Hc; cbn [walk].
    - cbn. split; [auto|]. split; [auto|]. intros x. tauto.
    - destruct in_dec as [Hin|Hin].
      + split; [auto|]. split; [auto|]. intros x. cbn. split; [auto|]. intros [H|H]; [auto|congruence].
      + split.
        * apply NoDup_Add with (a := BTerm a) (l := v); [|auto]. rewrite <- (app_nil_r v) at 1. apply Add_app.
        * split.
          -- intros x y Hx Hy. apply in_app_or in Hx as [Hx|[<-|[]]]; apply in_or_app; [left; eauto|right; left]. cbn in Hy. auto.
          -- intros x. rewrite in_app_iff. cbn. intuition.
    - destruct in_dec as [Hin|Hin].
      + split; [auto|]. split; [auto|]. intros x. cbn. split; [auto|]. intros [H|H]; [auto|]. apply (Hc _ x Hin). exact H.
      + destruct (IHz v Hv Hc) as [Nz [Cz Iz]]. destruct (IHo _ Nz Cz) as [No [Co Io]].
        assert (Hnot : ~ In (BNode n z o) (walk A_eq_dec o (walk A_eq_dec z v))).
        { rewrite Io, Iz. intros [[H|H]|H]; [auto| |].
          - apply subnode_size in H. cbn in H. lia.
          - apply subnode_size in H. cbn in H. lia. }
        split.
        * apply NoDup_Add with (a := BNode n z o) (l := walk A_eq_dec o (walk A_eq_dec z v)); [|auto].
          rewrite <- (app_nil_r (walk A_eq_dec o _)) at 1. apply Add_app.
        * assert (Iall : forall x, In x (walk A_eq_dec o (walk A_eq_dec z v) ++ [BNode n z o]) <-> In x v \/ subnode x (BNode n z o)).
          { intros x. rewrite in_app_iff, Io, Iz. cbn [In subnode]. intuition. }
          split; [|exact Iall].
          intros x y Hx Hy. apply Iall. apply Iall in Hx as [Hx|Hx]; [left; eauto|right]. eapply subnode_trans; eauto.
  Qed.

  Lemma len_spec (b : bdd A) : NoDup (walk A_eq_dec b []) /\ (forall x, In x (walk A_eq_dec b []) <-> subnode x b).
  Proof.
    destruct (walk_spec b [] (NoDup_nil _)) as [N [_ H]]; [intros x y []|].
    split; [auto|]. intros x. rewrite H. cbn. tauto.
  Qed.

  (** *** BDD_to_wcs *)
  Lemma BDD_to_wcs_partition (b : bdd A) : bdd_wf 0 b ->
    (forall w a, In (w, a) (BDD_to_wcs b) -> wc_ok w) /\
    (forall i j w x w' x' p, i <> j -> nth_error (BDD_to_wcs b) i = Some (w, x) -> nth_error (BDD_to_wcs b) j = Some (w', x') ->
       accepts w p -> accepts w' p -> False) /\
    (forall p a, denote b p = Some a <-> exists w, In (w, a) (BDD_to_wcs b) /\ accepts w p).
  Proof.
    intros Hw. split; [apply (to_wcs_ok A_eq_dec b WC_FULLWC 0); [auto|lia|apply full_ok|apply full_open]|].
    apply list_of_hits. intros p. apply (to_wcs_hits b WC_FULLWC 0); [auto|lia|apply full_accepts].
  Qed.
End Walk.

Lemma cudd_to_wcs_partition f : add_wf 0 f ->
  (forall w a, In (w, a) (cudd_to_wcs f) -> wc_ok w) /\
  (forall i j w x w' x' p, i <> j -> nth_error (cudd_to_wcs f) i = Some (w, x) -> nth_error (cudd_to_wcs f) j = Some (w', x') ->
     accepts w p -> accepts w' p -> False) /\
  (forall p t, adenote f p <> 0 /\ decode_terminal (adenote f p) = t <-> exists w, In (w, t) (cudd_to_wcs f) /\ accepts w p).
Proof.
  intros Hw. split.
  - intros w a Hin. unfold cudd_to_wcs in Hin. rewrite cudd_to_wcs_unadd in Hin. apply in_map_iff in Hin as [[w' v] [E Hin]].
    cbn in E. injection E as <- _. eapply (to_wcs_ok Z.eq_dec (unadd0 f) WC_FULLWC 0); eauto; [now apply unadd0_wf|lia|apply full_ok|apply full_open].
  - destruct (list_of_hits (cudd_to_wcs f) (fun p => if adenote f p =? 0 then None else Some (decode_terminal (adenote f p)))) as [H1 H2].
    { intros p. rewrite cudd_hits by auto. destruct (_ =? 0); reflexivity. }
    split; [exact H1|]. intros p t. rewrite <- H2. destruct (Z.eqb_spec (adenote f p) 0); split; intros H.
    + now destruct H.
    + discriminate.
    + destruct H as [_ ->]. reflexivity.
    + injection H as ->. auto.
Qed.

(** *** Backends agree, stated on what the diagrams mean *)
Section Represents.
  Context {A : Type} (A_eq_dec : forall x y : A, {x = y} + {x <> y}) (id : A -> Z).

  Definition represents (b : bdd A) (f : add) : Prop :=
    forall p, adenote f p = match denote b p with Some a => id a | None => 0 end.
  (** Ids given to the actions of a BDD are distinct and non-zero. *)
  Definition uses (known : A -> Prop) (b : bdd A) : Prop := forall p x, denote b p = Some x -> known x.
  Definition good_ids (known : A -> Prop) : Prop :=
    (forall x y, known x -> known y -> id x = id y -> x = y) /\ (forall x, known x -> id x <> 0).

  Lemma uses_all_terms known (b : bdd A) : forall lo, bdd_wf lo b -> uses known b -> all_terms known b.
  Proof.
    induction b as [|x|n z IHz o IHo]; intros lo Hw Hu; cbn [all_terms].
    - exact Logic.I.
    - apply (Hu (fun _ => false)). reflexivity.
    - destruct Hw as [Hn [_ [Wz Wo]]]. split; [apply (IHz (n + 1))|apply (IHo (n + 1))]; auto.
      + intros p x E. apply (Hu (upd p (NB - 1 - n) false)). now rewrite node_zero.
      + intros p x E. apply (Hu (upd p (NB - 1 - n) true)). now rewrite node_one.
  Qed.
  Lemma represents_embed known lo (b : bdd A) f : good_ids known -> bdd_wf lo b -> add_wf lo f -> uses known b ->
    represents b f -> f = embed id b.
  Proof.
    intros [H1 H2] Wb Wf Hu Hr. apply (adenote_inj lo); auto.
    - apply (embed_wf id known H1 H2); auto. now apply (uses_all_terms known b lo).
    - intros p. rewrite Hr, embed_denote. reflexivity.
  Qed.

  Context (known : A -> Prop) (G : good_ids known) (a b : bdd A) (f g : add).
  Context (Wa : bdd_wf 0 a) (Wb : bdd_wf 0 b) (Wf : add_wf 0 f) (Wg : add_wf 0 g).
  Context (Ua : uses known a) (Ub : uses known b) (Ra : represents a f) (Rb : represents b g).

  Lemma backends_agree_basic :
    represents (meld A_eq_dec a b) (addApply addMeld f g) /\
    represents (subtract A_eq_dec a b) (addApply addSubtract f g) /\
    represents (intersection A_eq_dec a b) (addApply addIntersection f g).
  Proof.
    rewrite (represents_embed known 0 a f), (represents_embed known 0 b g) by auto.
    assert (Ka := uses_all_terms known a 0 Wa Ua). assert (Kb := uses_all_terms known b 0 Wb Ub). destruct G as [G1 G2].
    split; [|split]; intros p.
    - rewrite <- (agree_meld A_eq_dec id known G1 G2 a b 0) by auto. apply embed_denote.
    - rewrite <- (agree_subtract A_eq_dec id known G1 G2 a b 0) by auto. apply embed_denote.
    - rewrite <- (agree_intersection A_eq_dec id known G1 G2 a b 0) by auto. apply embed_denote.
  Qed.
  Lemma backends_agree_difference (differs : A) : id differs = 1 -> known differs ->
    represents (difference A_eq_dec differs a b) (addApply addDifference f g).
  Proof.
    intros D1 D2. rewrite (represents_embed known 0 a f), (represents_embed known 0 b g) by auto.
    assert (Ka := uses_all_terms known a 0 Wa Ua). assert (Kb := uses_all_terms known b 0 Wb Ub). destruct G as [G1 G2].
    intros p. rewrite <- (agree_difference A_eq_dec id known G1 G2 differs D1 D2 a b) by auto. apply embed_denote.
  Qed.
  Lemma backends_agree_enumeration : (forall x, known x -> 0 <= id x < 2 ^ 26) ->
    cudd_to_wcs f = map (fun e => (fst e, (id (snd e), 0))) (BDD_to_wcs a) /\ cudd_bool f = bdd_bool A_eq_dec a.
  Proof.
    intros Hid. rewrite (represents_embed known 0 a f) by auto.
    assert (Ka := uses_all_terms known a 0 Wa Ua). destruct G as [G1 G2].
    split; [apply agree_to_wcs with (known := known); auto|]. now apply (agree_bool A_eq_dec id known G1 G2 a 0).
  Qed.
  Lemma backends_agree_equality : (a = b <-> f = g).
  Proof.
    rewrite (represents_embed known 0 a f), (represents_embed known 0 b g) by auto.
    assert (Ka := uses_all_terms known a 0 Wa Ua). assert (Kb := uses_all_terms known b 0 Wb Ub). destruct G as [G1 G2].
    split; [intros ->; reflexivity|]. now apply (embed_inj id known G1 G2).
  Qed.
End Represents.

Lemma cudd_wc_ok SHIFT wc t : 0 < SHIFT -> SHIFT mod 2 = 0 -> wc_ok wc -> t <> 0 ->
  add_wf 0 (cudd_wc_to_BDD SHIFT wc t) /\
  forall p, (accepts wc p -> adenote (cudd_wc_to_BDD SHIFT wc t) p = t) /\
            (~ accepts wc p -> adenote (cudd_wc_to_BDD SHIFT wc t) p = 0).
Proof.
  intros Hs He Hw Ht.
  destruct (wc_to_BDD_ok Z.eq_dec wc t Hw) as [b [E [W D]]].
  rewrite (c_wc_to_BDD_ok Z.eq_dec SHIFT wc t Hs He Hw) in E. injection E as E.
  assert (EC : cudd_wc_to_BDD SHIFT wc t = embed (fun x => x) b).
  { rewrite <- E. exact (agree_wc Z.eq_dec (fun x => x) SHIFT wc t (proj2 Hw) Hs He). }
  rewrite EC. split.
  - apply (embed_wf (fun x => x) (fun x => x = t)); [congruence|congruence| |auto].
    apply (uses_all_terms (fun x => x = t) b 0 W). intros p x Hx. destruct (D p) as [D1 D2].
    destruct (acceptsb wc p) eqn:Ea.
    + apply acceptsb_spec in Ea. rewrite (D1 Ea) in Hx. congruence.
    + rewrite D2 in Hx; [discriminate|]. intros Ha. apply acceptsb_spec in Ha. congruence.
  - intros p. rewrite embed_denote. destruct (D p) as [D1 D2]. split; intros H; [now rewrite D1|now rewrite D2].
Qed.
