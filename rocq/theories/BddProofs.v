(** Proofs about the BDD operations (C11-C14, C16, C18). *)
From Verif Require Import SpecBdd WildcardProofs MatchWcProofs.
From Coq Require Import ZifyBool ZifyNat ZifyN.
Ltac Zify.zify_post_hook ::= Z.div_mod_to_equations.
Local Opaque NB.

Section P.
  Context {A : Type} (A_eq_dec : forall x y : A, {x = y} + {x <> y}).
  Notation bdd := (bdd A).
  Notation mk := (mk A_eq_dec).
  Notation meld := (meld A_eq_dec).
  Notation subtract := (subtract A_eq_dec).
  Notation intersection := (intersection A_eq_dec).
  Notation bdd_eq_dec := (bdd_eq_dec A_eq_dec).

  Lemma denote_mk n (z o : bdd) p : denote (mk n z o) p = if p (NB - 1 - n) then denote o p else denote z p.
  Proof. unfold Bdd.mk. destruct bdd_eq_dec as [->|]; cbn; [destruct (p _)|]; reflexivity. Qed.

  Lemma wf_mono lo lo' (b : bdd) : lo' <= lo -> bdd_wf lo b -> bdd_wf lo' b.
  Proof. destruct b as [|a|n z o]; cbn; auto. intros H [H1 H2]. split; [lia|auto]. Qed.

  Lemma mk_wf lo n (z o : bdd) : lo <= n < NB -> bdd_wf (n + 1) z -> bdd_wf (n + 1) o -> bdd_wf lo (mk n z o).
  Proof.
    intros Hn Hz Ho. unfold Bdd.mk. destruct bdd_eq_dec as [->|Hne]; cbn; auto.
    apply (wf_mono (n + 1)); auto. lia.
  Qed.


  (** *** Unfolding equations *)
  Lemma meld_nt na az ao x : meld (BNode na az ao) (BTerm x) =
    if negb (has_none (BNode na az ao)) then BNode na az ao else mk na (meld az (BTerm x)) (meld ao (BTerm x)).
  Proof. reflexivity. Qed.
  Lemma meld_nn na az ao nb bz bo : meld (BNode na az ao) (BNode nb bz bo) =
    if negb (has_none (BNode na az ao)) then BNode na az ao else
    if na =? nb then mk na (meld az bz) (meld ao bo)
    else if na <? nb then mk na (meld az (BNode nb bz bo)) (meld ao (BNode nb bz bo))
    else mk nb (meld (BNode na az ao) bz) (meld (BNode na az ao) bo).
  Proof. reflexivity. Qed.
  Lemma intersection_tn x nb bz bo : intersection (BTerm x) (BNode nb bz bo) =
    if bdd_eq_dec (BTerm x) (BNode nb bz bo) then BTerm x else
    mk nb (intersection (BTerm x) bz) (intersection (BTerm x) bo).
  Proof. reflexivity. Qed.
  Lemma intersection_nn na az ao nb bz bo : intersection (BNode na az ao) (BNode nb bz bo) =
    if bdd_eq_dec (BNode na az ao) (BNode nb bz bo) then BNode na az ao else
    if na =? nb then mk na (intersection az bz) (intersection ao bo)
    else if na <? nb then mk na (intersection az (BNode nb bz bo)) (intersection ao (BNode nb bz bo))
    else mk nb (intersection (BNode na az ao) bz) (intersection (BNode na az ao) bo).
  Proof. reflexivity. Qed.

  (** *** Canonicity *)
  Lemma denote_indep (b : bdd) : forall lo p p', bdd_wf lo b ->
    (forall n, lo <= n < NB -> p (NB - 1 - n) = p' (NB - 1 - n)) -> denote b p = denote b p'.
  Proof.
    induction b as [|a|n z IHz o IHo]; intros lo p p' Hw H; cbn; auto.
    destruct Hw as [Hn [_ [Wz Wo]]]. rewrite (H n Hn).
    destruct (p' _); [apply (IHo (n + 1))|apply (IHz (n + 1))]; auto; intros; apply H; lia.
  Qed.

  Definition upd (p : packet) (i : Z) (v : bool) : packet := fun j => if j =? i then v else p j.
  Lemma upd_same p i v : upd p i v i = v.
  Proof. unfold upd. now rewrite Z.eqb_refl. Qed.

  Lemma denote_upd (b : bdd) lo p n v : bdd_wf lo b -> n < lo -> denote b (upd p (NB - 1 - n) v) = denote b p.
  Proof.
    intros Hw Hn. apply (denote_indep b lo); auto. intros m Hm. unfold upd.
    destruct (Z.eqb_spec (NB - 1 - m) (NB - 1 - n)); auto. lia.
  Qed.
  Lemma node_zero n (z o : bdd) p : bdd_wf (n + 1) z -> denote (BNode n z o) (upd p (NB - 1 - n) false) = denote z p.
  Proof. intros H. cbn. rewrite upd_same. apply (denote_upd z (n + 1)); auto. lia. Qed.
  Lemma node_one n (z o : bdd) p : bdd_wf (n + 1) o -> denote (BNode n z o) (upd p (NB - 1 - n) true) = denote o p.
  Proof. intros H. cbn. rewrite upd_same. apply (denote_upd o (n + 1)); auto. lia. Qed.

  Fixpoint bsize (b : bdd) : nat := match b with BNode _ z o => S (bsize z + bsize o) | _ => 1%nat end.

  Lemma denote_inj_aux k : forall a b lo, (bsize a + bsize b < k)%nat -> bdd_wf lo a -> bdd_wf lo b ->
    (forall p, denote a p = denote b p) -> a = b.
  Proof.
    induction k as [|k IH]; intros a b lo Hk Ha Hb H; [lia|].
    assert (Hp : packet) by exact (fun _ => false).
    (* a node whose number is below everything in b *)
    assert (Low : forall n z o (b : bdd), (bsize (BNode n z o) + bsize b < S k)%nat -> bdd_wf n (BNode n z o) ->
              bdd_wf (n + 1) b -> (forall p, denote (BNode n z o) p = denote b p) -> False).
    { intros n z o b' Hs [Hn [Hne [Wz Wo]]] Wb H'. cbn [bsize] in Hs.
      assert (z = b').
      { apply (IH z b' (n + 1)); auto; [lia|]. intros p.
        rewrite <- (node_zero n z o), H' by auto. apply (denote_upd b' (n + 1)); auto. lia. }
      assert (o = b').
      { apply (IH o b' (n + 1)); auto; [lia|]. intros p.
        rewrite <- (node_one n z o), H' by auto. apply (denote_upd b' (n + 1)); auto. lia. }
      congruence. }
    destruct a as [|x|n z o], b as [|y|m z' o'].
    - reflexivity.
    - discriminate (H Hp).
    - exfalso. apply (Low m z' o' BNone); auto; [lia|]. destruct Hb; split; [lia|auto].
    - discriminate (H Hp).
    - specialize (H Hp). cbn in H. congruence.
    - exfalso. apply (Low m z' o' (BTerm x)); auto; [lia|]. destruct Hb; split; [lia|auto].
    - exfalso. apply (Low n z o BNone); auto. destruct Ha; split; [lia|auto].
    - exfalso. apply (Low n z o (BTerm y)); auto. destruct Ha; split; [lia|auto].
    - destruct Ha as [Hn [Hne [Wz Wo]]], Hb as [Hm [Hne' [Wz' Wo']]].
      destruct (Z.lt_trichotomy n m) as [Hlt|[->|Hgt]].
      + exfalso. apply (Low n z o (BNode m z' o')); auto; [split; [lia|auto]|split; [lia|auto]].
      + cbn [bsize] in Hk. f_equal.
        * apply (IH z z' (m + 1)); auto; [lia|]. intros p.
          rewrite <- (node_zero m z o), <- (node_zero m z' o') by auto. apply H.
        * apply (IH o o' (m + 1)); auto; [lia|]. intros p.
          rewrite <- (node_one m z o), <- (node_one m z' o') by auto. apply H.
      + exfalso. apply (Low m z' o' (BNode n z o)); auto; [lia|split; [lia|auto]|split; [lia|auto]].
  Qed.
  Lemma denote_inj lo (a b : bdd) : bdd_wf lo a -> bdd_wf lo b ->
    (a = b <-> forall p, denote a p = denote b p).
  Proof.
    intros Ha Hb. split; [intros ->; auto|]. intros H.
    eapply (denote_inj_aux (S (bsize a + bsize b))); eauto.
  Qed.

  (** *** The operations, pointwise *)
  Lemma has_none_denote (b : bdd) p : has_none b = false -> denote b p <> None.
  Proof.
    induction b as [|a|n z IHz o IHo]; cbn; [discriminate|discriminate|].
    intros H. apply orb_false_iff in H as [Hz Ho]. destruct (p _); auto.
  Qed.

  Definition orelse {X} (x y : option X) : option X := match x with Some _ => x | None => y end.

  Lemma meld_denote p : forall a b : bdd, denote (meld a b) p = orelse (denote a p) (denote b p).
  Proof.
    induction a as [|x|na az IHz ao IHo]; intros b.
    - destruct b; reflexivity.
    - destruct b; reflexivity.
    - induction b as [|y|nb bz IHbz bo IHbo].
      + change (meld (BNode na az ao) BNone) with (BNode na az ao). cbn [denote]. destruct (if p _ then _ else _); reflexivity.
      + rewrite meld_nt. destruct (has_none _) eqn:Hh; cbn [negb].
        * rewrite denote_mk. cbn [denote]. destruct (p _); [now rewrite IHo|now rewrite IHz].
        * apply (has_none_denote _ p) in Hh. destruct (denote (BNode na az ao) p); [reflexivity|congruence].
      + rewrite meld_nn. destruct (has_none _) eqn:Hh; cbn [negb].
        * destruct (Z.eqb_spec na nb) as [->|Hne]; [|destruct (na <? nb)].
          -- rewrite denote_mk. cbn [denote]. destruct (p _); [now rewrite IHo|now rewrite IHz].
          -- rewrite denote_mk. cbn [denote]. destruct (p _); [now rewrite IHo|now rewrite IHz].
          -- rewrite denote_mk. cbn [denote] in *. destruct (p (NB - 1 - nb)); [exact IHbo|exact IHbz].
        * apply (has_none_denote _ p) in Hh. destruct (denote (BNode na az ao) p); [reflexivity|congruence].
  Qed.

  Lemma meld_wf : forall (a b : bdd) lo, bdd_wf lo a -> bdd_wf lo b -> bdd_wf lo (meld a b).
  Proof.
    induction a as [|x|na az IHz ao IHo]; intros b.
    - destruct b; cbn; auto.
    - destruct b; cbn; auto.
    - induction b as [|y|nb bz IHbz bo IHbo]; intros lo Ha Hb.
      + exact Ha.
      + rewrite meld_nt. destruct (negb _); [auto|]. destruct Ha as [Hn [_ [Wz Wo]]].
        apply mk_wf; auto.
      + rewrite meld_nn. destruct (negb _); [auto|].
        destruct (Z.eqb_spec na nb) as [->|Hne]; [|destruct (Z.ltb_spec na nb)].
        * destruct Ha as [Hn [_ [Wz Wo]]], Hb as [Hm [_ [Wz' Wo']]]. apply mk_wf; auto.
        * destruct Ha as [Hn [_ [Wz Wo]]]. apply mk_wf; auto.
          -- apply IHz; auto. destruct Hb as [Hm Hb]. split; [lia|auto].
          -- apply IHo; auto. destruct Hb as [Hm Hb]. split; [lia|auto].
        * assert (Ha' : bdd_wf (nb + 1) (BNode na az ao)) by (destruct Ha as [Hn Ha]; split; [lia|auto]).
          destruct Hb as [Hm [_ [Wz' Wo']]]. apply mk_wf; auto.
  Qed.

  Definition opt_eq_dec : forall x y : option A, {x = y} + {x <> y}.
  Proof. decide equality. Defined.

  Definition minus_at (x y : option A) : option A := if opt_eq_dec x y then None else x.
  Definition meet_at (x y : option A) : option A := if opt_eq_dec x y then x else None.

  Lemma minus_none_l y : minus_at None y = None.
  Proof. unfold minus_at. destruct opt_eq_dec; reflexivity. Qed.
  Lemma minus_none_r x : minus_at x None = x.
  Proof. unfold minus_at. destruct opt_eq_dec; congruence. Qed.
  Lemma minus_same x : minus_at x x = None.
  Proof. unfold minus_at. destruct opt_eq_dec; congruence. Qed.
  Lemma minus_terms x y : x <> y -> minus_at (Some x) (Some y) = Some x.
  Proof. unfold minus_at. destruct opt_eq_dec; congruence. Qed.
  Lemma meet_none_l y : meet_at None y = None.
  Proof. unfold meet_at. destruct opt_eq_dec; reflexivity. Qed.
  Lemma meet_none_r x : meet_at x None = None.
  Proof. unfold meet_at. destruct opt_eq_dec; congruence. Qed.
  Lemma meet_same x : meet_at x x = x.
  Proof. unfold meet_at. destruct opt_eq_dec; congruence. Qed.
  Lemma meet_terms x y : x <> y -> meet_at (Some x) (Some y) = None.
  Proof. unfold meet_at. destruct opt_eq_dec; congruence. Qed.

  Lemma subtract_denote p : forall a b : bdd, denote (subtract a b) p = minus_at (denote a p) (denote b p).
  Proof.
    induction a as [|x|na az IHz ao IHo]; intros b.
    - rewrite minus_none_l. destruct b; cbn [Bdd.subtract]; destruct bdd_eq_dec; reflexivity.
    - induction b as [|y|nb bz IHbz bo IHbo]; cbn [Bdd.subtract]; destruct bdd_eq_dec as [E|NE].
      + discriminate.
      + cbn [denote]. now rewrite minus_none_r.
      + injection E as ->. cbn. now rewrite minus_same.
      + cbn [denote]. rewrite minus_terms; [reflexivity|congruence].
      + discriminate.
      + rewrite denote_mk. cbn [denote] in *. destruct (p (NB - 1 - nb)); [exact IHbo|exact IHbz].
    - induction b as [|y|nb bz IHbz bo IHbo]; cbn [Bdd.subtract]; destruct bdd_eq_dec as [E|NE].
      + discriminate.
      + cbn [denote]. now rewrite minus_none_r.
      + discriminate.
      + rewrite denote_mk. cbn [denote]. destruct (p _); [now rewrite IHo|now rewrite IHz].
      + rewrite E, minus_same. reflexivity.
      + destruct (Z.eqb_spec na nb) as [->|Hne]; [|destruct (na <? nb)]; rewrite denote_mk.
        * cbn [denote]. destruct (p _); [now rewrite IHo|now rewrite IHz].
        * cbn [denote]. destruct (p (NB - 1 - na)); [now rewrite IHo|now rewrite IHz].
        * cbn [denote] in *. destruct (p (NB - 1 - nb)); [exact IHbo|exact IHbz].
  Qed.

  Lemma subtract_wf : forall (a b : bdd) lo, bdd_wf lo a -> bdd_wf lo b -> bdd_wf lo (subtract a b).
  Proof.
    induction a as [|x|na az IHz ao IHo]; intros b.
    - destruct b; cbn [Bdd.subtract]; destruct bdd_eq_dec; cbn; auto.
    - induction b as [|y|nb bz IHbz bo IHbo]; intros lo Ha Hb; cbn [Bdd.subtract]; destruct bdd_eq_dec as [E|NE]; cbn; auto.
      destruct Hb as [Hm [_ [Wz' Wo']]]. apply mk_wf; auto.
    - induction b as [|y|nb bz IHbz bo IHbo]; intros lo Ha Hb; cbn [Bdd.subtract]; destruct bdd_eq_dec as [E|NE]; cbn; auto.
      + destruct Ha as [Hn [_ [Wz Wo]]]. apply mk_wf; auto.
      + destruct (Z.eqb_spec na nb) as [->|Hne]; [|destruct (Z.ltb_spec na nb)].
        * destruct Ha as [Hn [_ [Wz Wo]]], Hb as [Hm [_ [Wz' Wo']]]. apply mk_wf; auto.
        * destruct Ha as [Hn [_ [Wz Wo]]]. apply mk_wf; auto.
          -- apply IHz; auto. destruct Hb as [Hm Hb]. split; [lia|auto].
          -- apply IHo; auto. destruct Hb as [Hm Hb]. split; [lia|auto].
        * assert (Ha' : bdd_wf (nb + 1) (BNode na az ao)) by (destruct Ha as [Hn Ha]; split; [lia|auto]).
          destruct Hb as [Hm [_ [Wz' Wo']]]. apply mk_wf; auto.
  Qed.

  Lemma intersection_denote p : forall a b : bdd, denote (intersection a b) p = meet_at (denote a p) (denote b p).
  Proof.
    induction a as [|x|na az IHz ao IHo]; intros b.
    - rewrite meet_none_l. destruct b; reflexivity.
    - induction b as [|y|nb bz IHbz bo IHbo]; cbn [Bdd.intersection].
      + cbn [denote]. now rewrite meet_none_r.
      + destruct bdd_eq_dec as [E|NE]; [injection E as ->; cbn; now rewrite meet_same|].
        cbn [denote]. rewrite meet_terms; [reflexivity|congruence].
      + destruct bdd_eq_dec as [E|NE]; [discriminate|].
        rewrite denote_mk. cbn [denote] in *. destruct (p (NB - 1 - nb)); [exact IHbo|exact IHbz].
    - induction b as [|y|nb bz IHbz bo IHbo]; cbn [Bdd.intersection].
      + cbn [denote]. now rewrite meet_none_r.
      + destruct bdd_eq_dec as [E|NE]; [discriminate|].
        rewrite denote_mk. cbn [denote]. destruct (p _); [now rewrite IHo|now rewrite IHz].
      + destruct bdd_eq_dec as [E|NE]; [rewrite E, meet_same; reflexivity|].
        destruct (Z.eqb_spec na nb) as [->|Hne]; [|destruct (na <? nb)]; rewrite denote_mk.
        * cbn [denote]. destruct (p _); [now rewrite IHo|now rewrite IHz].
        * cbn [denote]. destruct (p (NB - 1 - na)); [now rewrite IHo|now rewrite IHz].
        * cbn [denote] in *. destruct (p (NB - 1 - nb)); [exact IHbo|exact IHbz].
  Qed.

  Lemma intersection_wf : forall (a b : bdd) lo, bdd_wf lo a -> bdd_wf lo b -> bdd_wf lo (intersection a b).
  Proof.
    induction a as [|x|na az IHz ao IHo]; intros b.
    - destruct b; cbn; auto.
    - induction b as [|y|nb bz IHbz bo IHbo]; intros lo Ha Hb; cbn [Bdd.intersection]; try destruct bdd_eq_dec as [E|NE]; cbn; auto.
      destruct Hb as [Hm [_ [Wz' Wo']]]. apply mk_wf; auto.
    - induction b as [|y|nb bz IHbz bo IHbo]; intros lo Ha Hb; cbn [Bdd.intersection]; try destruct bdd_eq_dec as [E|NE]; cbn; auto.
      + destruct Ha as [Hn [_ [Wz Wo]]]. apply mk_wf; auto.
      + destruct (Z.eqb_spec na nb) as [->|Hne]; [|destruct (Z.ltb_spec na nb)].
        * destruct Ha as [Hn [_ [Wz Wo]]], Hb as [Hm [_ [Wz' Wo']]]. apply mk_wf; auto.
        * destruct Ha as [Hn [_ [Wz Wo]]]. apply mk_wf; auto.
          -- apply IHz; auto. destruct Hb as [Hm Hb]. split; [lia|auto].
          -- apply IHo; auto. destruct Hb as [Hm Hb]. split; [lia|auto].
        * assert (Ha' : bdd_wf (nb + 1) (BNode na az ao)) by (destruct Ha as [Hn Ha]; split; [lia|auto]).
          destruct Hb as [Hm [_ [Wz' Wo']]]. apply mk_wf; auto.
  Qed.

  (** *** difference *)
  Section Diff.
  Context (differs : A).
  Notation difference := (difference A_eq_dec differs).

  Lemma difference_eq a b : difference a b =
    if bdd_eq_dec a b then BNone else
    match a, b with
    | BNone, _ => BTerm differs
    | BTerm _, BNone => BTerm differs
    | BTerm _, BTerm _ => BTerm differs
    | BNode na az ao, BNone => mk na (difference az BNone) (difference ao BNone)
    | BNode na az ao, BTerm _ => mk na (difference az b) (difference ao b)
    | BTerm _, BNode nb bz bo => mk nb (difference a bz) (difference a bo)
    | BNode na az ao, BNode nb bz bo =>
      if na =? nb then mk na (difference az bz) (difference ao bo)
      else if na <? nb then mk na (difference az b) (difference ao b)
      else mk nb (difference a bz) (difference a bo)
    end.
  Proof. destruct a, b; reflexivity. Qed.

  (** Every value of the result is DIFFERS; no true difference is missed; where [a] is
      defined the result is exact. *)
  Lemma difference_denote p : forall a b : bdd,
    (denote (difference a b) p = None \/ denote (difference a b) p = Some differs) /\
    (denote a p <> denote b p -> denote (difference a b) p = Some differs) /\
    (denote a p <> None -> denote a p = denote b p -> denote (difference a b) p = None).
  Proof.
    induction a as [|x|na az IHz ao IHo]; intros b.
    - assert (E : difference BNone b = match b with BNone => BNone | _ => BTerm differs end).
      { destruct b; cbn [Bdd.difference]; destruct bdd_eq_dec; congruence. }
      rewrite E. destruct b; cbn; (split; [auto|split; [auto; congruence|congruence]]).
    - induction b as [|y|nb bz IHbz bo IHbo]; cbn [Bdd.difference]; destruct bdd_eq_dec as [E|NE].
      + discriminate.
      + cbn. split; [auto|split; [auto|congruence]].
      + injection E as ->. cbn. split; [auto|split; [congruence|auto]].
      + cbn. split; [auto|split; [auto|congruence]].
      + discriminate.
      + rewrite denote_mk. cbn [denote] in *. destruct (p (NB - 1 - nb)); [exact IHbo|exact IHbz].
    - induction b as [|y|nb bz IHbz bo IHbo]; cbn [Bdd.difference]; destruct bdd_eq_dec as [E|NE].
      + discriminate.
      + rewrite denote_mk. cbn [denote]. destruct (p _); [exact (IHo BNone)|exact (IHz BNone)].
      + discriminate.
      + rewrite denote_mk. cbn [denote]. destruct (p _); [exact (IHo (BTerm y))|exact (IHz (BTerm y))].
      + rewrite E. cbn [denote]. split; [auto|split; [congruence|auto]].
      + destruct (Z.eqb_spec na nb) as [->|Hne]; [|destruct (na <? nb)]; rewrite denote_mk.
        * cbn [denote]. destruct (p _); [exact (IHo bo)|exact (IHz bz)].
        * cbn [denote]. destruct (p (NB - 1 - na)); [exact (IHo (BNode nb bz bo))|exact (IHz (BNode nb bz bo))].
        * cbn [denote] in *. destruct (p (NB - 1 - nb)); [exact IHbo|exact IHbz].
  Qed.

  Lemma difference_wf : forall (a b : bdd) lo, bdd_wf lo a -> bdd_wf lo b -> bdd_wf lo (difference a b).
  Proof.
    induction a as [|x|na az IHz ao IHo]; intros b.
    - destruct b; cbn [Bdd.difference]; destruct bdd_eq_dec; cbn; auto.
    - induction b as [|y|nb bz IHbz bo IHbo]; intros lo Ha Hb; cbn [Bdd.difference]; destruct bdd_eq_dec as [E|NE]; cbn; auto.
      destruct Hb as [Hm [_ [Wz' Wo']]]. apply mk_wf; auto.
    - induction b as [|y|nb bz IHbz bo IHbo]; intros lo Ha Hb; cbn [Bdd.difference]; destruct bdd_eq_dec as [E|NE]; cbn; auto.
      + destruct Ha as [Hn [_ [Wz Wo]]]. apply mk_wf; auto.
      + destruct Ha as [Hn [_ [Wz Wo]]]. apply mk_wf; auto.
      + destruct (Z.eqb_spec na nb) as [->|Hne]; [|destruct (Z.ltb_spec na nb)].
        * destruct Ha as [Hn [_ [Wz Wo]]], Hb as [Hm [_ [Wz' Wo']]]. apply mk_wf; auto.
        * destruct Ha as [Hn [_ [Wz Wo]]]. apply mk_wf; auto.
          -- apply IHz; auto. destruct Hb as [Hm Hb]. split; [lia|auto].
          -- apply IHo; auto. destruct Hb as [Hm Hb]. split; [lia|auto].
        * assert (Ha' : bdd_wf (nb + 1) (BNode na az ao)) by (destruct Ha as [Hn Ha]; split; [lia|auto]).
          destruct Hb as [Hm [_ [Wz' Wo']]]. apply mk_wf; auto.
  Qed.

  (** A reduced BDD that is nowhere defined is None. *)
  Lemma wf_none lo (b : bdd) : bdd_wf lo b -> (forall p, denote b p = None) -> b = BNone.
  Proof. intros Hb H. apply (denote_inj lo); cbn; auto. Qed.

  (** When everything [b] decides is also decided by [a], difference is exact. *)
  Lemma difference_exact : forall (a b : bdd) lo, bdd_wf lo a -> bdd_wf lo b ->
    (forall p, denote a p = None -> denote b p = None) ->
    forall p, denote (difference a b) p = if opt_eq_dec (denote a p) (denote b p) then None else Some differs.
  Proof.
    induction a as [|x|na az IHz ao IHo]; intros b.
    - intros lo Ha Hb Hd p. assert (b = BNone) as -> by (apply (wf_none lo); auto).
      cbn [Bdd.difference]. destruct bdd_eq_dec; [|congruence]. cbn [denote]. destruct opt_eq_dec; congruence.
    - intros lo Ha Hb _ p. destruct (difference_denote p (BTerm x) b) as [_ [H1 H2]]. cbn [denote] in *.
      destruct opt_eq_dec as [E|NE]; [apply H2|apply H1]; congruence.
    - induction b as [|y|nb bz IHbz bo IHbo]; intros lo Ha Hb Hd p.
      + destruct (difference_denote p (BNode na az ao) BNone) as [_ [H1 H2]].
        destruct opt_eq_dec as [E|NE]; [|auto]. cbn [Bdd.difference]. destruct bdd_eq_dec; [discriminate|].
        rewrite denote_mk. cbn [denote] in E. destruct Ha as [Hn [_ [Wz Wo]]].
        destruct (p _).
        * rewrite (IHo BNone (na + 1)); cbn [bdd_wf]; auto. cbn [denote]. destruct opt_eq_dec; congruence.
        * rewrite (IHz BNone (na + 1)); cbn [bdd_wf]; auto. cbn [denote]. destruct opt_eq_dec; congruence.
      + destruct Ha as [Hn [_ [Wz Wo]]]. cbn [Bdd.difference]. destruct bdd_eq_dec; [discriminate|].
        rewrite denote_mk.
        assert (Hdz : forall q, denote az q <> None).
        { intros q E. specialize (Hd (upd q (NB - 1 - na) false)). rewrite node_zero in Hd by auto. now apply Hd in E. }
        assert (Hdo : forall q, denote ao q <> None).
        { intros q E. specialize (Hd (upd q (NB - 1 - na) true)). rewrite node_one in Hd by auto. now apply Hd in E. }
        cbn [denote] in *. destruct (p _).
        * rewrite (IHo (BTerm y) (na + 1)); cbn [bdd_wf]; auto. intros q E. now apply Hdo in E.
        * rewrite (IHz (BTerm y) (na + 1)); cbn [bdd_wf]; auto. intros q E. now apply Hdz in E.
      + cbn [Bdd.difference]. destruct bdd_eq_dec as [E|NE].
        { rewrite E. cbn [denote]. destruct opt_eq_dec; congruence. }
        destruct Ha as [Hn [Hnea [Wz Wo]]], Hb as [Hm [Hneb [Wz' Wo']]].
        destruct (Z.eqb_spec na nb) as [->|Hne]; [|destruct (Z.ltb_spec na nb)]; rewrite denote_mk.
        * assert (Hz : forall q, denote az q = None -> denote bz q = None).
          { intros q E. specialize (Hd (upd q (NB - 1 - nb) false)). rewrite !node_zero in Hd by auto. auto. }
          assert (Ho : forall q, denote ao q = None -> denote bo q = None).
          { intros q E. specialize (Hd (upd q (NB - 1 - nb) true)). rewrite !node_one in Hd by auto. auto. }
          cbn [denote]. destruct (p _); [now rewrite (IHo bo (nb + 1))|now rewrite (IHz bz (nb + 1))].
        * assert (Wb : bdd_wf (na + 1) (BNode nb bz bo)) by (split; [lia|auto]).
          assert (Hz : forall q, denote az q = None -> denote (BNode nb bz bo) q = None).
          { intros q E. specialize (Hd (upd q (NB - 1 - na) false)).
            rewrite node_zero, (denote_upd _ (na + 1)) in Hd by (auto; lia). auto. }
          assert (Ho : forall q, denote ao q = None -> denote (BNode nb bz bo) q = None).
          { intros q E. specialize (Hd (upd q (NB - 1 - na) true)).
            rewrite node_one, (denote_upd _ (na + 1)) in Hd by (auto; lia). auto. }
          change (denote (BNode na az ao) p) with (if p (NB - 1 - na) then denote ao p else denote az p).
          destruct (p (NB - 1 - na)); [now rewrite (IHo (BNode nb bz bo) (na + 1))|now rewrite (IHz (BNode nb bz bo) (na + 1))].
        * assert (Wa : bdd_wf (nb + 1) (BNode na az ao)) by (split; [lia|auto]).
          assert (Hz : forall q, denote (BNode na az ao) q = None -> denote bz q = None).
          { intros q E. specialize (Hd (upd q (NB - 1 - nb) false)).
            rewrite node_zero, (denote_upd _ (nb + 1)) in Hd by (auto; lia). auto. }
          assert (Ho : forall q, denote (BNode na az ao) q = None -> denote bo q = None).
          { intros q E. specialize (Hd (upd q (NB - 1 - nb) true)).
            rewrite node_one, (denote_upd _ (nb + 1)) in Hd by (auto; lia). auto. }
          change (denote (BNode nb bz bo) p) with (if p (NB - 1 - nb) then denote bo p else denote bz p).
          destruct (p (NB - 1 - nb)); [now apply (IHbo (nb + 1))|now apply (IHbz (nb + 1))].
  Qed.

  End Diff.

  (** *** wc_to_BDD *)
  Lemma wc_bit_spec wc b : 0 <= b ->
    wc_bit wc b = (if Z.testbit wc (2 * b) then 1 else 0) + (if Z.testbit wc (2 * b + 1) then 2 else 0).
  Proof.
    intros Hb. unfold wc_bit. apply Z.bits_inj'. intros n Hn.
    rewrite Z.land_spec, Z.shiftr_spec by lia.
    destruct (Z.eq_dec n 0) as [->|]; [|destruct (Z.eq_dec n 1) as [->|]].
    - replace (0 + b * 2) with (2 * b) by lia. destruct (Z.testbit wc (2 * b)), (Z.testbit wc (2 * b + 1)); reflexivity.
    - replace (1 + b * 2) with (2 * b + 1) by lia. destruct (Z.testbit wc (2 * b)), (Z.testbit wc (2 * b + 1)); reflexivity.
    - replace (Z.testbit 3 n) with false by (symmetry; apply (MortonProofs.testbit_small 3 2); lia).
      rewrite andb_false_r. symmetry.
      apply (MortonProofs.testbit_small _ 2); [|lia|lia].
      destruct (Z.testbit wc (2 * b)), (Z.testbit wc (2 * b + 1)); lia.
  Qed.

  (** [wc] restricted to the first [k] positions accepts [p]. *)
  Definition low_accepts (wc : Z) (k : nat) (p : packet) : bool :=
    forallb (fun i => Z.testbit wc (2 * i + (if p i then 1 else 0))) (seqZ k).

  Lemma seqZ_snoc k : seqZ (S k) = seqZ k ++ [Z.of_nat k].
  Proof. unfold seqZ. rewrite seq_S, map_app. reflexivity. Qed.

  Lemma rfold_l_app {X Y} (f : X -> Y -> result X) l1 : forall l2 x,
    rfold_l f x (l1 ++ l2) = rbind (rfold_l f x l1) (fun x' => rfold_l f x' l2).
  Proof.
    induction l1 as [|y t IH]; intros l2 x; cbn; [reflexivity|].
    destruct (f x y) as [x'|e]; cbn; [apply IH|reflexivity].
  Qed.

  Lemma wc_to_BDD_prefix wc (act : A) : zfree wc -> forall k, Z.of_nat k <= NB ->
    exists b, rfold_l (wc_to_BDD_step wc) (BTerm act) (seqZ k) = Ok b /\ b <> BNone /\
    bdd_wf (NB - Z.of_nat k) b /\
    forall p, denote b p = if low_accepts wc k p then Some act else None.
  Proof.
    intros Hz. induction k as [|k IH]; intros Hk.
    - exists (BTerm act). cbn. repeat split; auto. discriminate.
    - destruct IH as [b [E [Hn [Hw Hd]]]]; [lia|]. rewrite seqZ_snoc, rfold_l_app, E. cbn [rbind rfold_l].
      unfold wc_to_BDD_step. rewrite wc_bit_spec by lia. specialize (Hz (Z.of_nat k) ltac:(lia)).
      assert (LA : forall p, low_accepts wc (S k) p =
          low_accepts wc k p && Z.testbit wc (2 * Z.of_nat k + (if p (Z.of_nat k) then 1 else 0))).
      { intros p. unfold low_accepts. rewrite seqZ_snoc, forallb_app. cbn [forallb]. now rewrite andb_true_r. }
      assert (Hidx : NB - 1 - (NB - 1 - Z.of_nat k) = Z.of_nat k) by lia.
      destruct (Z.testbit wc (2 * Z.of_nat k)) eqn:E0, (Z.testbit wc (2 * Z.of_nat k + 1)) eqn:E1.
      + cbn [Z.add Z.eqb Pos.eqb Pos.add rbind Z.of_nat]. exists b. split; [reflexivity|]. split; [auto|].
        split; [apply (wf_mono (NB - Z.of_nat k)); auto; lia|]. intros p. rewrite Hd, LA.
        destruct (p (Z.of_nat k)); rewrite ?Z.add_0_r, ?E0, ?E1, andb_true_r; reflexivity.
      + cbn [Z.add Z.eqb Pos.eqb Pos.add rbind]. eexists. split; [reflexivity|]. split; [discriminate|].
        split.
        * cbn. split; [lia|]. split; [auto|]. split; [|auto]. apply (wf_mono (NB - Z.of_nat k)); auto; lia.
        * intros p. cbn [denote]. rewrite Hidx, Hd, LA.
          destruct (p (Z.of_nat k)); rewrite ?Z.add_0_r, ?E0, ?E1, ?andb_true_r, ?andb_false_r; reflexivity.
      + cbn [Z.add Z.eqb Pos.eqb Pos.add rbind]. eexists. split; [reflexivity|]. split; [discriminate|].
        split.
        * cbn. split; [lia|]. split; [auto|]. split; [auto|]. apply (wf_mono (NB - Z.of_nat k)); auto; lia.
        * intros p. cbn [denote]. rewrite Hidx, Hd, LA.
          destruct (p (Z.of_nat k)); rewrite ?Z.add_0_r, ?E0, ?E1, ?andb_true_r, ?andb_false_r; reflexivity.
      + destruct Hz; congruence.
  Qed.

  Lemma low_accepts_all wc p : low_accepts wc (Z.to_nat NB) p = true <-> accepts wc p.
  Proof. apply acceptsb_spec. Qed.

  Lemma wc_to_BDD_ok wc (act : A) : wc_ok wc -> exists b, wc_to_BDD wc act = Ok b /\ bdd_wf 0 b /\
    forall p, (accepts wc p -> denote b p = Some act) /\ (~ accepts wc p -> denote b p = None).
  Proof.
    intros [Hr Hz]. unfold wc_to_BDD. destruct (Z.eqb_spec wc 0) as [E|_]; [apply zfree_nonzero in Hz; congruence|].
    destruct (wc_to_BDD_prefix wc act Hz (Z.to_nat NB)) as [b [E [_ [W D]]]]; [pose proof NB_pos; lia|].
    exists b. split; [auto|]. split; [apply (wf_mono (NB - Z.of_nat (Z.to_nat NB))); auto; pose proof NB_pos; lia|].
    intros p. rewrite D, <- low_accepts_all. destruct (low_accepts _ _ _); split; intros H; auto; congruence.
  Qed.

  (** A z tbit makes the Python version fail. *)
  Lemma rfold_l_err {X Y} (f : X -> Y -> result X) e : forall l x, (forall x y, In y l -> f x y = Err e \/ exists x', f x y = Ok x') ->
    (exists y, In y l /\ forall x, f x y = Err e) -> rfold_l f x l = Err e.
  Proof.
    induction l as [|y t IH]; intros x Hf [y0 [Hin Hy]]; [destruct Hin|]. cbn.
    destruct (Hf x y (or_introl eq_refl)) as [->|[x' Ex]]; [reflexivity|].
    rewrite Ex. cbn. destruct Hin as [->|Hin]; [rewrite Hy in Ex; discriminate|].
    apply IH; eauto. intros. apply Hf. now right.
  Qed.
  Lemma wc_to_BDD_z wc (act : A) : wc <> 0 -> ~ zfree wc -> wc_to_BDD wc act = Err AssertionError.
  Proof.
    intros Hn Hz. unfold wc_to_BDD. destruct (Z.eqb_spec wc 0); [congruence|].
    apply rfold_l_err.
    - intros x y _. unfold wc_to_BDD_step. destruct (_ =? 0); [auto|]. destruct (_ =? 1); [eauto|]. destruct (_ =? 2); eauto.
    - assert (H : exists i, 0 <= i < NB /\ Z.testbit wc (2 * i) || Z.testbit wc (2 * i + 1) = false).
      { destruct (Z_bits_eqb_dec (fun i => negb (Z.testbit wc (2 * i) || Z.testbit wc (2 * i + 1))) NB) as [H|[i [Hi E]]].
        - exfalso. apply Hz. intros i Hi. specialize (H i Hi). apply negb_false_iff, orb_true_iff in H. auto.
        - exists i. split; [auto|]. now apply negb_true_iff in E. }
      destruct H as [i [Hi E]]. exists i. split; [apply in_seqZ; lia|]. intros x.
      unfold wc_to_BDD_step. rewrite wc_bit_spec by lia. apply orb_false_iff in E as [-> ->]. reflexivity.
  Qed.

  (** *** The C version reads the same tbits *)
  Lemma c_wc_bit_spec SHIFT wc off : 0 < SHIFT -> SHIFT mod 2 = 0 -> 0 <= off -> c_wc_bit SHIFT wc off = wc_bit wc off.
  Proof.
    intros Hs He Ho. unfold c_wc_bit, py_digit, wc_bit. apply Z.bits_inj'. intros n Hn.
    rewrite !Z.land_spec. destruct (Z.testbit 3 n) eqn:E3; [|now rewrite !andb_false_r].
    assert (Hn2 : n < 2). { destruct (Z.lt_ge_cases n 2); auto. rewrite (MortonProofs.testbit_small 3 2) in E3; [discriminate|lia..]. }
    assert (Hm : 0 <= (off * 2) mod SHIFT < SHIFT) by (apply Z.mod_pos_bound; lia).
    assert (Hq : 0 <= off * 2 / SHIFT) by (apply Z.div_pos; lia).
    assert (Hdm : off * 2 = SHIFT * (off * 2 / SHIFT) + (off * 2) mod SHIFT) by (apply Z.div_mod; lia).
    assert (Hev : ((off * 2) mod SHIFT) mod 2 = 0).
    { destruct (Z.mod_divide SHIFT 2) as [D _]; [lia|]. destruct (D He) as [h Eh]. subst SHIFT.
      replace ((off * 2) mod (h * 2)) with ((off - h * (off * 2 / (h * 2))) * 2) by lia.
      apply Z.mod_mul. lia. }
    rewrite Z.shiftr_spec, Z.land_spec, Z.shiftr_spec by lia.
    replace (2 ^ SHIFT - 1) with (Z.ones SHIFT) by (rewrite Z.ones_equiv; lia).
    assert (Hlt : n + (off * 2) mod SHIFT < SHIFT).
    { destruct (Z.eq_dec n 0) as [->|]; [lia|]. assert (n = 1) as -> by lia.
      pose proof (Z.div_mod ((off * 2) mod SHIFT) 2 ltac:(lia)). pose proof (Z.div_mod SHIFT 2 ltac:(lia)). lia. }
    rewrite Z.ones_spec_low by lia. rewrite Z.shiftr_spec by lia. rewrite !andb_true_r. f_equal. lia.
  Qed.

  Lemma c_wc_to_BDD_ok SHIFT wc (act : A) : 0 < SHIFT -> SHIFT mod 2 = 0 -> wc_ok wc ->
    wc_to_BDD wc act = Ok (c_wc_to_BDD A_eq_dec SHIFT wc act).
  Proof.
    intros Hs He [Hr Hz]. unfold wc_to_BDD, c_wc_to_BDD. destruct (wc =? 0); [reflexivity|].
    assert (H : forall k, Z.of_nat k <= NB ->
      rfold_l (wc_to_BDD_step wc) (BTerm act) (seqZ k) = Ok (fold_left (c_wc_to_BDD_step A_eq_dec SHIFT wc) (seqZ k) (BTerm act))).
    { induction k as [|k IH]; intros Hk; [reflexivity|].
      destruct (wc_to_BDD_prefix wc act Hz k ltac:(lia)) as [b [E [Hne _]]].
      rewrite seqZ_snoc, rfold_l_app, fold_left_app, IH by lia. rewrite IH in E by lia. injection E as E.
      cbn [rbind rfold_l fold_left]. rewrite E. unfold wc_to_BDD_step, c_wc_to_BDD_step.
      rewrite c_wc_bit_spec, wc_bit_spec by (auto; lia). specialize (Hz (Z.of_nat k) ltac:(lia)).
      unfold Bdd.mk. do 2 destruct (Z.testbit wc _); cbn [Z.add Z.eqb Pos.eqb Pos.add rbind];
        try (destruct bdd_eq_dec; [congruence|reflexivity]); try reflexivity.
      destruct Hz; congruence. }
    apply H. pose proof NB_pos. lia.
  Qed.

  (** *** BDD_to_wcs *)
  Definition clear0 (wc n : Z) : Z := Z.land wc (Z.lnot (Z.shiftl 2 ((NB - 1 - n) * 2))).
  Definition clear1 (wc n : Z) : Z := Z.land wc (Z.lnot (Z.shiftl 1 ((NB - 1 - n) * 2))).

  Lemma clear_bit wc n (k : Z) m : 0 <= n < NB -> 0 <= m -> (k = 1 \/ k = 2) ->
    Z.testbit (Z.land wc (Z.lnot (Z.shiftl k ((NB - 1 - n) * 2)))) m =
    Z.testbit wc m && negb (m =? 2 * (NB - 1 - n) + (k - 1)).
  Proof.
    intros Hn Hm Hk. rewrite Z.land_spec, Z.lnot_spec, Z.shiftl_spec by lia. f_equal. f_equal.
    destruct (Z.eqb_spec m (2 * (NB - 1 - n) + (k - 1))) as [->|Hne].
    - destruct Hk as [->| ->]; [replace (_ - _) with 0 by lia|replace (_ - _) with 1 by lia]; reflexivity.
    - destruct (Z.lt_ge_cases m ((NB - 1 - n) * 2)); [apply Z.testbit_neg_r; lia|].
      assert (m - (NB - 1 - n) * 2 <> k - 1) by lia.
      destruct Hk as [->| ->].
      + destruct (m - (NB - 1 - n) * 2) as [|q|q] eqn:E; try lia. change 1 with (2 ^ 0). apply Z.pow2_bits_false. lia.
      + change 2 with (2 ^ 1). apply Z.pow2_bits_false. lia.
  Qed.

  (** [wc] has both values open at all positions tested by nodes numbered [lo] or more. *)
  Definition open_from (lo wc : Z) : Prop :=
    forall n, lo <= n < NB -> Z.testbit wc (2 * (NB - 1 - n)) = true /\ Z.testbit wc (2 * (NB - 1 - n) + 1) = true.

  Lemma clear_accepts wc n k p : 0 <= n < NB -> (k = 1 \/ k = 2) ->
    accepts (Z.land wc (Z.lnot (Z.shiftl k ((NB - 1 - n) * 2)))) p <->
    accepts wc p /\ p (NB - 1 - n) = (k =? 1).
  Proof.
    intros Hn Hk. unfold accepts. split.
    - intros H. split.
      + intros i Hi. specialize (H i Hi). rewrite clear_bit in H by (auto; destruct (p i); lia).
        now apply andb_true_iff in H as [H _].
      + specialize (H (NB - 1 - n) ltac:(lia)). rewrite clear_bit in H by (auto; destruct (p _); lia).
        apply andb_true_iff in H as [_ H]. apply negb_true_iff, Z.eqb_neq in H.
        destruct Hk as [->| ->]; destruct (p (NB - 1 - n)); cbn; auto; exfalso; lia.
    - intros [H1 H2] i Hi. rewrite clear_bit by (auto; destruct (p i); lia). rewrite H1 by auto. cbn [andb].
      apply negb_true_iff, Z.eqb_neq. destruct (Z.eq_dec i (NB - 1 - n)) as [->|Hne].
      + rewrite H2. destruct Hk as [->| ->]; cbn; lia.
      + destruct (p i), Hk; lia.
  Qed.

  (** The list entries accepting [p], by position. *)
  Definition hits {X} (l : list (Z * X)) (p : packet) : list (Z * X) := filter (fun e => acceptsb (fst e) p) l.

  Lemma hits_app {X} (l1 l2 : list (Z * X)) p : hits (l1 ++ l2) p = hits l1 p ++ hits l2 p.
  Proof. unfold hits. apply filter_app. Qed.

  Lemma to_wcs_none (b : bdd) : forall wc lo p, bdd_wf lo b -> 0 <= lo -> ~ accepts wc p -> hits (BDD_to_wcs_rec b wc) p = [].
  Proof.
    induction b as [|a|n z IHz o IHo]; intros wc lo p Hw Hlo Hp; cbn [BDD_to_wcs_rec].
    - reflexivity.
    - unfold hits. cbn. destruct (acceptsb wc p) eqn:E; [|reflexivity]. now apply acceptsb_spec in E.
    - destruct Hw as [Hn [_ [Wz Wo]]]. rewrite hits_app.
      assert (Hz : hits (BDD_to_wcs_rec z (Z.land wc (Z.lnot (Z.shiftl 2 ((NB - 1 - n) * 2))))) p = []).
      { apply (IHz _ (n + 1)); auto; [lia|]. rewrite clear_accepts by (auto; lia). tauto. }
      assert (Ho : hits (BDD_to_wcs_rec o (Z.land wc (Z.lnot (Z.shiftl 1 ((NB - 1 - n) * 2))))) p = []).
      { apply (IHo _ (n + 1)); auto; [lia|]. rewrite clear_accepts by (auto; lia). tauto. }
      destruct z; [|rewrite Hz|rewrite Hz]; (destruct o; [|rewrite Ho|rewrite Ho]; reflexivity).
  Qed.

  Lemma rec_none (b : bdd) wc : (match b with BNone => [] | _ => BDD_to_wcs_rec b wc end) = BDD_to_wcs_rec b wc.
  Proof. destruct b; reflexivity. Qed.

  Lemma to_wcs_hits (b : bdd) : forall wc lo p, bdd_wf lo b -> 0 <= lo -> accepts wc p ->
    map snd (hits (BDD_to_wcs_rec b wc) p) = match denote b p with Some a => [a] | None => [] end.
  Proof.
    induction b as [|a|n z IHz o IHo]; intros wc lo p Hw Hlo Hp; cbn [BDD_to_wcs_rec denote].
    - reflexivity.
    - unfold hits. cbn. now rewrite (proj2 (acceptsb_spec _ _) Hp).
    - destruct Hw as [Hn [_ [Wz Wo]]]. rewrite !rec_none, hits_app, map_app.
      destruct (p (NB - 1 - n)) eqn:Ep.
      + rewrite (to_wcs_none z _ (n + 1)) by (auto; try lia; rewrite clear_accepts by (auto; lia); rewrite Ep; intros [_ X]; discriminate X).
        cbn [map app]. apply (IHo _ (n + 1)); auto; [lia|]. apply clear_accepts; auto; lia.
      + rewrite (to_wcs_none o _ (n + 1)) by (auto; try lia; rewrite clear_accepts by (auto; lia); rewrite Ep; intros [_ X]; discriminate X).
        cbn [map app]. rewrite app_nil_r. apply (IHz _ (n + 1)); auto; [lia|]. apply clear_accepts; auto; lia.
  Qed.

  (** Every wildcard produced is proper and has the padding... every entry is a proper wildcard. *)
  Lemma to_wcs_ok (b : bdd) : forall wc lo, bdd_wf lo b -> 0 <= lo -> wc_ok wc -> open_from lo wc ->
    forall w a, In (w, a) (BDD_to_wcs_rec b wc) -> wc_ok w.
  Proof.
    induction b as [|x|n z IHz o IHo]; intros wc lo Hw Hlo Hwc Hopen w a Hin; cbn [BDD_to_wcs_rec] in Hin.
    - destruct Hin.
    - destruct Hin as [[= <- _]|[]]. auto.
    - destruct Hw as [Hn [_ [Wz Wo]]]. rewrite !rec_none in Hin.
      assert (Hstep : forall k, (k = 1 \/ k = 2) -> wc_ok (Z.land wc (Z.lnot (Z.shiftl k ((NB - 1 - n) * 2))))
                       /\ open_from (n + 1) (Z.land wc (Z.lnot (Z.shiftl k ((NB - 1 - n) * 2))))).
      { intros k Hk. split; [split|].
        - apply wc_range_land. apply Hwc.
        - intros i Hi. rewrite !clear_bit by (auto; lia). destruct (Z.eq_dec i (NB - 1 - n)) as [->|Hne].
          + destruct (Hopen n Hn) as [-> ->]. cbn [andb]. rewrite !negb_true_iff, !Z.eqb_neq. destruct Hk; lia.
          + destruct (proj2 Hwc i Hi) as [E|E]; [left|right]; rewrite E; cbn [andb]; apply negb_true_iff, Z.eqb_neq; lia.
        - intros m Hm. rewrite !clear_bit by (auto; lia). destruct (Hopen m ltac:(lia)) as [-> ->]. cbn [andb].
          rewrite !negb_true_iff, !Z.eqb_neq. destruct Hk; lia. }
      apply in_app_or in Hin as [Hin|Hin].
      + destruct (Hstep 2 ltac:(auto)) as [H1 H2]. eapply (IHz _ (n + 1)); eauto. lia.
      + destruct (Hstep 1 ltac:(auto)) as [H1 H2]. eapply (IHo _ (n + 1)); eauto. lia.
  Qed.

  Lemma full_open : open_from 0 WC_FULLWC.
  Proof. intros n Hn. rewrite !FULL_testbit by lia. lia. Qed.
  Lemma full_ok : wc_ok WC_FULLWC.
  Proof.
    split.
    - apply wc_range_bits; [apply FULL_nonneg|]. intros i Hi. pose proof NB_pos. rewrite FULL_testbit by lia. lia.
    - intros i Hi. left. rewrite FULL_testbit by lia. lia.
  Qed.
  Lemma full_accepts p : accepts WC_FULLWC p.
  Proof. intros i Hi. rewrite FULL_testbit by (destruct (p i); lia). destruct (p i); lia. Qed.

  (** *** walk, __len__, truth value *)
  Lemma walk_incl (b : bdd) : forall v x, In x v -> In x (walk A_eq_dec b v).
  Proof.
    induction b as [|a|n z IHz o IHo]; intros v x Hx; cbn [walk]; auto; destruct in_dec; auto;
      apply in_or_app; left; auto.
  Qed.
  Lemma walk_self (b : bdd) v : b <> BNone -> In b (walk A_eq_dec b v).
  Proof.
    destruct b as [|a|n z o]; intros H; [congruence| |]; cbn [walk]; destruct in_dec; auto;
      apply in_or_app; right; now left.
  Qed.
  Lemma bdd_bool_spec lo (b : bdd) : bdd_wf lo b -> (bdd_bool A_eq_dec b = true <-> exists p, denote b p <> None).
  Proof.
    intros Hw. unfold bdd_bool, bdd_len. destruct b as [|a|n z o].
    - cbn. split; [discriminate|]. intros [p H]. congruence.
    - cbn. split; [|auto]. intros _. exists (fun _ => false). discriminate.
    - assert (Hin := walk_self (BNode n z o) [] ltac:(discriminate)).
      destruct (walk A_eq_dec (BNode n z o) []) as [|y l]; [destruct Hin|]. cbn. split; [intros _|auto].
      (* not everywhere undefined *)
      destruct (bdd_eq_dec (BNode n z o) BNone) as [E|NE]; [discriminate|].
      assert (HD : forall (c : bdd) l, bdd_wf l c -> c <> BNone -> exists p, denote c p <> None).
      { clear - A_eq_dec. induction c as [|a|n z IHz o IHo]; intros l Hw Hne; [congruence|exists (fun _ => false); discriminate|].
        destruct Hw as [Hn [Hzo [Wz Wo]]]. destruct (bdd_eq_dec z BNone) as [->|Hz].
        - destruct (IHo (n + 1) Wo) as [p Hp]; [congruence|]. exists (upd p (NB - 1 - n) true). now rewrite node_one.
        - destruct (IHz (n + 1) Wz Hz) as [p Hp]. exists (upd p (NB - 1 - n) false). now rewrite node_zero. }
      apply (HD (BNode n z o) lo); auto.
  Qed.
End P.
