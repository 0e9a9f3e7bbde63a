(** CUDD: canonicity, pointwise meaning of Cudd_addApply, agreement with the tree backends
    (C17, C18, C19). *)
From Verif Require Import SpecBdd WildcardProofs MatchWcProofs BddProofs.
From Coq Require Import ZifyBool ZifyNat ZifyN.
Ltac Zify.zify_post_hook ::= Z.div_mod_to_equations.
Local Opaque NB.

(** *** ADDs are BDDs over numbers *)
Fixpoint unadd (f : add) : bdd Z :=
  match f with AConst v => BTerm v | ANode n t e => BNode n (unadd e) (unadd t) end.
Lemma unadd_inj f : forall g, unadd f = unadd g -> f = g.
Proof.
  induction f as [v|n t IHt e IHe]; intros [w|m t' e'] H; cbn in H; try discriminate; injection H; intros; subst.
  - reflexivity.
  - f_equal; auto.
Qed.
Lemma unadd_denote f p : denote (unadd f) p = Some (adenote f p).
Proof. induction f as [v|n t IHt e IHe]; cbn; [reflexivity|]. destruct (p _); auto. Qed.
Lemma unadd_wf f : forall lo, add_wf lo f <-> bdd_wf lo (unadd f).
Proof.
  induction f as [v|n t IHt e IHe]; intros lo; cbn; [tauto|].
  rewrite IHt, IHe. split; intros [H1 [H2 [H3 H4]]]; (split; [auto|split; [|auto]]).
  - intros E. apply H2. symmetry. now apply unadd_inj.
  - intros ->. now apply H2.
Qed.
Lemma adenote_inj lo f g : add_wf lo f -> add_wf lo g -> (f = g <-> forall p, adenote f p = adenote g p).
Proof.
  intros Hf Hg. split; [intros ->; auto|]. intros H. apply unadd_inj.
  apply (denote_inj Z.eq_dec lo); [now apply unadd_wf|now apply unadd_wf|].
  intros p. now rewrite !unadd_denote, H.
Qed.

Lemma adenote_amk n t e p : adenote (amk n t e) p = if p (NB - 1 - n) then adenote t p else adenote e p.
Proof. unfold amk. destruct add_eq_dec as [->|]; cbn; [destruct (p _)|]; reflexivity. Qed.
Lemma add_wf_mono lo lo' f : lo' <= lo -> add_wf lo f -> add_wf lo' f.
Proof. destruct f; cbn; auto. intros H [H1 H2]. split; [lia|auto]. Qed.
Lemma amk_wf lo n t e : lo <= n < NB -> add_wf (n + 1) t -> add_wf (n + 1) e -> add_wf lo (amk n t e).
Proof.
  intros Hn Hz Ho. unfold amk. destruct add_eq_dec as [->|Hne]; cbn; auto.
  apply (add_wf_mono (n + 1)); auto. lia.
Qed.

(** *** Cudd_addApply *)
Section Apply.
  Context (op : add -> add -> option add).

  Lemma addApply_eq f g : addApply op f g =
    match op f g with
    | Some r => r
    | None =>
      match f, g with
      | AConst _, AConst _ => f
      | ANode i ft fe, AConst _ => amk i (addApply op ft g) (addApply op fe g)
      | AConst _, ANode j gt ge => amk j (addApply op f gt) (addApply op f ge)
      | ANode i ft fe, ANode j gt ge =>
        if i =? j then amk i (addApply op ft gt) (addApply op fe ge)
        else if i <? j then amk i (addApply op ft g) (addApply op fe g)
        else amk j (addApply op f gt) (addApply op f ge)
      end
    end.
  Proof. destruct f, g; reflexivity. Qed.

  Context (opz : Z -> Z -> Z).
  Hypothesis op_sound : forall f g r p, op f g = Some r -> adenote r p = opz (adenote f p) (adenote g p).
  Hypothesis op_const : forall u v, op (AConst u) (AConst v) <> None.
  Hypothesis op_wf : forall f g r lo, op f g = Some r -> add_wf lo f -> add_wf lo g -> add_wf lo r.

  Lemma addApply_denote p f : forall g, adenote (addApply op f g) p = opz (adenote f p) (adenote g p).
  Proof using op_sound op_const.
    clear op_wf.
    induction f as [u|i ft IHt fe IHe]; induction g as [v|j gt IHgt ge IHge];
      rewrite addApply_eq; destruct (op _ _) as [r|] eqn:E; try (now apply op_sound).
    - now apply op_const in E.
    - rewrite adenote_amk. cbn [adenote]. destruct (p _); auto.
    - rewrite adenote_amk. cbn [adenote]. destruct (p _); [now rewrite IHt|now rewrite IHe].
    - destruct (Z.eqb_spec i j) as [->|]; [|destruct (i <? j)]; rewrite adenote_amk.
      + cbn [adenote]. destruct (p _); [now rewrite IHt|now rewrite IHe].
      + rewrite IHt, IHe. cbn [adenote]. destruct (p (NB - 1 - i)); reflexivity.
      + cbn [adenote] in *. destruct (p (NB - 1 - j)); [now rewrite IHgt|now rewrite IHge].
  Qed.

  Lemma addApply_wf f : forall g lo, add_wf lo f -> add_wf lo g -> add_wf lo (addApply op f g).
  Proof using op_wf.
    clear op_sound op_const opz.
    induction f as [u|i ft IHt fe IHe]; induction g as [v|j gt IHgt ge IHge]; intros lo Hf Hg;
      rewrite addApply_eq; destruct (op _ _) as [r|] eqn:E; try (now apply (op_wf _ _ _ lo E)).
    - auto.
    - destruct Hg as [Hn [_ [W1 W2]]]. apply amk_wf; auto.
    - destruct Hf as [Hn [_ [W1 W2]]]. apply amk_wf; auto.
    - destruct (Z.eqb_spec i j) as [->|]; [|destruct (Z.ltb_spec i j)].
      + destruct Hf as [Hn [_ [W1 W2]]], Hg as [Hm [_ [V1 V2]]]. apply amk_wf; auto.
      + assert (add_wf (i + 1) (ANode j gt ge)) by (destruct Hg as [Hm Hg]; split; [lia|auto]).
        destruct Hf as [Hn [_ [W1 W2]]]. apply amk_wf; auto.
      + assert (add_wf (j + 1) (ANode i ft fe)) by (destruct Hf as [Hm Hf]; split; [lia|auto]).
        destruct Hg as [Hn [_ [W1 W2]]]. apply amk_wf; auto.
  Qed.
End Apply.

Definition z_meld (u v : Z) : Z := if u =? 0 then v else u.
Definition z_subtract (u v : Z) : Z := if u =? v then 0 else u.
Definition z_intersection (u v : Z) : Z := if u =? v then u else 0.
Definition z_tagged (u v : Z) : Z := if u =? v then 0 else encode_terminal u v.

Lemma meld_sound f g r p : addMeld f g = Some r -> adenote r p = z_meld (adenote f p) (adenote g p).
Proof.
  unfold addMeld, z_meld. destruct (add_eq_dec f g) as [->|]; cbn [orb].
  - intros [= <-]. destruct (_ =? 0); reflexivity.
  - destruct (add_eq_dec f BK) as [->|Hf]; [now intros [= <-]|]. cbn [orb].
    destruct f as [u|i t e]; cbn [is_const orb].
    + intros [= <-]. cbn. destruct (Z.eqb_spec u 0) as [->|]; [now elim Hf|reflexivity].
    + destruct (add_eq_dec g BK) as [->|]; [|discriminate]. intros [= <-].
      destruct (Z.eqb_spec (adenote (ANode i t e) p) 0) as [E|]; [exact E|reflexivity].
Qed.
Lemma meld_op_wf f g r lo : addMeld f g = Some r -> add_wf lo f -> add_wf lo g -> add_wf lo r.
Proof.
  unfold addMeld. destruct (_ || _); [intros [= <-]; auto|]. destruct (_ || _); [intros [= <-]; auto|discriminate].
Qed.
Lemma subtract_sound f g r p : addSubtract f g = Some r -> adenote r p = z_subtract (adenote f p) (adenote g p).
Proof.
  unfold addSubtract, z_subtract. destruct (add_eq_dec f g) as [->|Hne].
  - intros [= <-]. rewrite Z.eqb_refl. reflexivity.
  - destruct f as [u|], g as [v|]; cbn; try discriminate. intros [= <-].
    destruct (Z.eqb_spec u v) as [->|]; [congruence|reflexivity].
Qed.
Lemma subtract_op_wf f g r lo : addSubtract f g = Some r -> add_wf lo f -> add_wf lo g -> add_wf lo r.
Proof.
  unfold addSubtract. destruct add_eq_dec; [intros [= <-]; cbn; auto|]. destruct (_ && _); [intros [= <-]; auto|discriminate].
Qed.
Lemma intersection_sound f g r p : addIntersection f g = Some r -> adenote r p = z_intersection (adenote f p) (adenote g p).
Proof.
  unfold addIntersection, z_intersection. destruct (add_eq_dec f g) as [->|Hne].
  - intros [= <-]. rewrite Z.eqb_refl. reflexivity.
  - destruct f as [u|], g as [v|]; cbn; try discriminate. intros [= <-].
    destruct (Z.eqb_spec u v) as [->|]; [congruence|reflexivity].
Qed.
Lemma intersection_op_wf f g r lo : addIntersection f g = Some r -> add_wf lo f -> add_wf lo g -> add_wf lo r.
Proof.
  unfold addIntersection. destruct add_eq_dec; [intros [= <-]; auto|]. destruct (_ && _); [intros [= <-]; cbn; auto|discriminate].
Qed.
Lemma tagged_sound f g r p : addDiffTagged f g = Some r -> adenote r p = z_tagged (adenote f p) (adenote g p).
Proof.
  unfold addDiffTagged, z_tagged. destruct (add_eq_dec f g) as [->|Hne].
  - intros [= <-]. rewrite Z.eqb_refl. reflexivity.
  - destruct f as [u|], g as [v|]; cbn; try discriminate. intros [= <-]. cbn.
    destruct (Z.eqb_spec u v) as [->|]; [congruence|reflexivity].
Qed.
Lemma tagged_op_wf f g r lo : addDiffTagged f g = Some r -> add_wf lo f -> add_wf lo g -> add_wf lo r.
Proof.
  unfold addDiffTagged. destruct add_eq_dec; [intros [= <-]; cbn; auto|]. destruct f, g; try discriminate. intros [= <-]; cbn; auto.
Qed.
Lemma meld_const u v : addMeld (AConst u) (AConst v) <> None.
Proof. unfold addMeld. destruct (_ || _); [discriminate|]. cbn. discriminate. Qed.
Lemma subtract_const u v : addSubtract (AConst u) (AConst v) <> None.
Proof. unfold addSubtract. destruct add_eq_dec; cbn; discriminate. Qed.
Lemma intersection_const u v : addIntersection (AConst u) (AConst v) <> None.
Proof. unfold addIntersection. destruct add_eq_dec; cbn; discriminate. Qed.
Lemma tagged_const u v : addDiffTagged (AConst u) (AConst v) <> None.
Proof. unfold addDiffTagged. destruct add_eq_dec; cbn; discriminate. Qed.

(** *** The 26 + 26 bit terminals *)
Lemma shiftl_26 b : Z.shiftl b 26 = b * 2 ^ 26. Proof. apply Z.shiftl_mul_pow2. lia. Qed.
Lemma encode_0 a : encode_terminal a 0 = a.
Proof. unfold encode_terminal. rewrite shiftl_26. cbn. apply Z.lor_0_r. Qed.
Lemma encode_add a b : 0 <= a < 2 ^ 26 -> 0 <= b -> encode_terminal a b = a + b * 2 ^ 26.
Proof.
  intros Ha Hb. unfold encode_terminal. rewrite <- shiftl_26.
  assert (H : Z.land a (Z.shiftl b 26) = 0).
  { apply Z.bits_inj'; intros n Hn; rewrite Z.land_spec, Z.bits_0. destruct (Z.lt_ge_cases n 26);
    [rewrite Z.shiftl_spec_low by lia; apply andb_false_r
    |rewrite (MortonProofs.testbit_small a 26) by lia; reflexivity]. }
  rewrite Z.add_nocarry_lxor, Z.lxor_lor; auto.
Qed.
Lemma decode_encode a b : 0 <= a < 2 ^ 26 -> 0 <= b < 2 ^ 26 -> decode_terminal (encode_terminal a b) = (a, b).
Proof.
  intros Ha Hb. unfold decode_terminal. rewrite encode_add by lia.
  change 67108863 with (Z.ones 26). rewrite !Z.land_ones, Z.shiftr_div_pow2 by lia.
  rewrite Z.mod_add, Z.div_add by lia. rewrite (Z.mod_small a), (Z.div_small a) by lia.
  rewrite Z.mod_small by lia. reflexivity.
Qed.
Lemma encode_nonzero a b : 0 <= a < 2 ^ 26 -> 0 <= b < 2 ^ 26 -> a <> b -> encode_terminal a b <> 0.
Proof. intros Ha Hb H E. apply H. assert (X := decode_encode a b Ha Hb). rewrite E in X. change (decode_terminal 0) with (0, 0) in X. congruence. Qed.

Definition ids_small (f : add) : Prop := forall p, 0 <= adenote f p < 2 ^ 26.

Lemma difftagged_spec f g p : ids_small f -> ids_small g ->
  (adenote f p = adenote g p -> adenote (addApply addDiffTagged f g) p = 0) /\
  (adenote f p <> adenote g p -> adenote (addApply addDiffTagged f g) p <> 0 /\
     decode_terminal (adenote (addApply addDiffTagged f g) p) = (adenote f p, adenote g p)).
Proof.
  intros Hf Hg. rewrite (addApply_denote _ z_tagged tagged_sound tagged_const). unfold z_tagged.
  split; intros H; destruct (Z.eqb_spec (adenote f p) (adenote g p)) as [E|E]; try congruence.
  split; [apply encode_nonzero|apply decode_encode]; auto.
Qed.

Lemma difftagged_BK f g : add_wf 0 f -> add_wf 0 g -> ids_small f -> ids_small g ->
  (addApply addDiffTagged f g = BK <-> f = g).
Proof.
  intros Wf Wg Hf Hg. split.
  - intros E. apply (adenote_inj 0); auto. intros p.
    destruct (difftagged_spec f g p Hf Hg) as [_ H]. rewrite E in H.
    destruct (Z.eq_dec (adenote f p) (adenote g p)); auto. destruct (H n) as [X _]. now elim X.
  - intros ->. rewrite addApply_eq. unfold addDiffTagged at 1. destruct add_eq_dec; [reflexivity|congruence].
Qed.

(** *** Paths of an ADD *)
Fixpoint unadd0 (f : add) : bdd Z :=
  match f with AConst v => if v =? 0 then BNone else BTerm v | ANode n t e => BNode n (unadd0 e) (unadd0 t) end.
Lemma unadd0_inj f : forall g, unadd0 f = unadd0 g -> f = g.
Proof.
  induction f as [v|n t IHt e IHe]; intros [w|m t' e'] H; cbn in H;
    try (destruct (v =? 0); discriminate); try (destruct (w =? 0); discriminate).
  - destruct (Z.eqb_spec v 0), (Z.eqb_spec w 0); try discriminate; congruence.
  - injection H; intros; subst. f_equal; auto.
Qed.
Lemma unadd0_denote f p : denote (unadd0 f) p = if adenote f p =? 0 then None else Some (adenote f p).
Proof. induction f as [v|n t IHt e IHe]; cbn; [destruct (v =? 0); reflexivity|]. destruct (p _); auto. Qed.
Lemma unadd0_wf f : forall lo, add_wf lo f -> bdd_wf lo (unadd0 f).
Proof.
  induction f as [v|n t IHt e IHe]; intros lo; cbn; [destruct (v =? 0); cbn; auto|].
  intros [H1 [H2 [H3 H4]]]; (split; [auto|split; [|auto]]).
  intros E. apply H2. symmetry. now apply unadd0_inj.
Qed.
Lemma cudd_to_wcs_unadd f : forall wc,
  cudd_to_wcs_rec f wc = map (fun e => (fst e, decode_terminal (snd e))) (BDD_to_wcs_rec (unadd0 f) wc).
Proof.
  induction f as [v|n t IHt e IHe]; intros wc; cbn [cudd_to_wcs_rec unadd0 BDD_to_wcs_rec].
  - destruct (v =? 0); reflexivity.
  - rewrite !rec_none, map_app, IHt, IHe. reflexivity.
Qed.
Lemma hits_map {X Y} (h : X -> Y) (l : list (Z * X)) p :
  map snd (hits (map (fun e => (fst e, h (snd e))) l) p) = map h (map snd (hits l p)).
Proof.
  unfold hits. induction l as [|[w x] l IH]; [reflexivity|]. cbn [map filter fst snd].
  destruct (acceptsb w p); cbn [map snd]; now rewrite IH.
Qed.
Lemma cudd_hits f p : add_wf 0 f ->
  map snd (hits (cudd_to_wcs f) p) = if adenote f p =? 0 then [] else [decode_terminal (adenote f p)].
Proof.
  intros Hw. unfold cudd_to_wcs. rewrite cudd_to_wcs_unadd, hits_map.
  rewrite (to_wcs_hits (unadd0 f) WC_FULLWC 0 p) by (try apply unadd0_wf; auto; try lia; apply full_accepts).
  rewrite unadd0_denote. destruct (_ =? 0); reflexivity.
Qed.
Lemma size_rec_length f : forall wc, size_rec f = Z.of_nat (List.length (cudd_to_wcs_rec f wc)).
Proof.
  induction f as [v|n t IHt e IHe]; intros wc; cbn [size_rec cudd_to_wcs_rec].
  - destruct (v =? 0); reflexivity.
  - rewrite app_length, Nat2Z.inj_add, <- IHt, <- IHe. reflexivity.
Qed.

(** *** Agreement of the backends *)
Section Agree.
  Context {A : Type} (A_eq_dec : forall x y : A, {x = y} + {x <> y}) (id : A -> Z) (known : A -> Prop).
  Hypothesis id_inj : forall x y, known x -> known y -> id x = id y -> x = y.
  Hypothesis id_nonzero : forall x, known x -> id x <> 0.

  Fixpoint embed (b : bdd A) : add :=
    match b with
    | BNone => BK
    | BTerm a => AConst (encode_terminal (id a) 0)
    | BNode n z o => ANode n (embed o) (embed z)
    end.
  Fixpoint all_terms (b : bdd A) : Prop :=
    match b with BNone => True | BTerm a => known a | BNode _ z o => all_terms z /\ all_terms o end.

  Lemma embed_inj a : forall b, all_terms a -> all_terms b -> embed a = embed b -> a = b.
  Proof.
    induction a as [|x|n z IHz o IHo]; intros [|y|m z' o'] Ha Hb H; cbn [embed] in H; unfold BK in H; rewrite ?encode_0 in H; try discriminate.
    - reflexivity.
    - injection H as H. symmetry in H. now apply id_nonzero in H.
    - injection H as H. now apply id_nonzero in H.
    - injection H as H. f_equal. auto.
    - injection H; intros; subst. destruct Ha, Hb. f_equal; auto.
  Qed.
  Lemma embed_denote b p : adenote (embed b) p = match denote b p with Some a => id a | None => 0 end.
  Proof. induction b; cbn [embed adenote denote]; [reflexivity|apply encode_0|]. destruct (p _); auto. Qed.
  Lemma embed_wf b : forall lo, all_terms b -> bdd_wf lo b -> add_wf lo (embed b).
  Proof.
    induction b as [|x|n z IHz o IHo]; intros lo Hb H; cbn; auto. destruct Hb as [Hz Ho], H as [H1 [H2 [H3 H4]]].
    split; [auto|]. split; [|auto]. intros E. apply H2. symmetry. now apply embed_inj.
  Qed.
  Lemma denote_known b p a : all_terms b -> denote b p = Some a -> known a.
  Proof.
    induction b as [|x|n z IHz o IHo]; cbn; [discriminate|congruence|]. intros [Hz Ho]. destruct (p _); auto.
  Qed.
  Lemma all_terms_mk n z o : all_terms z -> all_terms o -> all_terms (mk A_eq_dec n z o).
  Proof. unfold mk. destruct bdd_eq_dec; cbn; auto. Qed.

  Lemma all_terms_meld a : forall b, all_terms a -> all_terms b -> all_terms (meld A_eq_dec a b).
  Proof.
    induction a as [|x|na az IHz ao IHo]; [destruct b; cbn; auto|destruct b; cbn; auto|].
    induction b as [|y|nb bz IHbz bo IHbo]; intros Ha Hb; [exact Ha| |].
    - rewrite meld_nt. destruct (negb _); auto. destruct Ha. apply all_terms_mk; auto.
    - rewrite meld_nn. destruct (negb _); auto. destruct (na =? nb); [|destruct (na <? nb)];
        apply all_terms_mk; destruct Ha, Hb; auto; try (apply IHz || apply IHo); try (apply IHbz || apply IHbo); cbn; auto.
  Qed.
  Lemma all_terms_subtract a : forall b, all_terms a -> all_terms (subtract A_eq_dec a b).
  Proof.
    induction a as [|x|na az IHz ao IHo]; induction b as [|y|nb bz IHbz bo IHbo]; intros Ha; cbn [subtract];
      destruct bdd_eq_dec; cbn [all_terms]; auto; try (destruct Ha; now apply all_terms_mk; auto).
    - apply all_terms_mk; [apply IHbz|apply IHbo]; auto.
    - destruct (na =? nb); [|destruct (na <? nb)]; [destruct Ha; apply all_terms_mk; auto..|].
      apply all_terms_mk; [apply IHbz|apply IHbo]; auto.
  Qed.
  Lemma all_terms_intersection a : forall b, all_terms a -> all_terms (intersection A_eq_dec a b).
  Proof.
    induction a as [|x|na az IHz ao IHo]; [destruct b; cbn; auto| |].
    - induction b as [|y|nb bz IHbz bo IHbo]; intros Ha.
      + cbn. auto.
      + cbn [intersection]. destruct bdd_eq_dec; cbn; auto.
      + rewrite intersection_tn. destruct bdd_eq_dec; auto. apply all_terms_mk; auto.
    - induction b as [|y|nb bz IHbz bo IHbo]; intros Ha.
      + cbn. auto.
      + cbn [intersection]. destruct bdd_eq_dec; auto. destruct Ha. apply all_terms_mk; auto.
      + rewrite intersection_nn. destruct bdd_eq_dec; auto.
        destruct (na =? nb); [|destruct (na <? nb)]; [destruct Ha; apply all_terms_mk; auto..|]. apply all_terms_mk; auto.
  Qed.

  Section Pair.
    Context (a b : bdd A) (lo : Z) (Wa : bdd_wf lo a) (Wb : bdd_wf lo b) (Ka : all_terms a) (Kb : all_terms b).

    Lemma agree_meld : embed (meld A_eq_dec a b) = addApply addMeld (embed a) (embed b).
    Proof.
      apply (adenote_inj lo).
      - apply embed_wf; [now apply all_terms_meld|now apply meld_wf].
      - apply (addApply_wf _ meld_op_wf); now apply embed_wf.
      - intros p. rewrite embed_denote, (addApply_denote _ z_meld meld_sound meld_const), !embed_denote, meld_denote.
        unfold z_meld, orelse. destruct (denote a p) as [x|] eqn:E; [|reflexivity].
        apply denote_known in E; auto. apply id_nonzero in E. destruct (Z.eqb_spec (id x) 0); congruence.
    Qed.
    Lemma agree_subtract : embed (subtract A_eq_dec a b) = addApply addSubtract (embed a) (embed b).
    Proof.
      apply (adenote_inj lo).
      - apply embed_wf; [now apply all_terms_subtract|now apply subtract_wf].
      - apply (addApply_wf _ subtract_op_wf); now apply embed_wf.
      - intros p. rewrite embed_denote, (addApply_denote _ z_subtract subtract_sound subtract_const), !embed_denote, subtract_denote.
        unfold z_subtract, minus_at. destruct opt_eq_dec as [E|NE]; [rewrite E, Z.eqb_refl; reflexivity|].
        destruct (denote a p) as [x|] eqn:Ex, (denote b p) as [y|] eqn:Ey.
        + apply denote_known in Ex; auto. apply denote_known in Ey; auto.
          destruct (Z.eqb_spec (id x) (id y)) as [E|]; auto. apply id_inj in E; congruence.
        + apply denote_known in Ex; auto. apply id_nonzero in Ex. destruct (Z.eqb_spec (id x) 0); congruence.
        + destruct (_ =? _); reflexivity.
        + congruence.
    Qed.
    Lemma agree_intersection : embed (intersection A_eq_dec a b) = addApply addIntersection (embed a) (embed b).
    Proof.
      apply (adenote_inj lo).
      - apply embed_wf; [now apply all_terms_intersection|now apply intersection_wf].
      - apply (addApply_wf _ intersection_op_wf); now apply embed_wf.
      - intros p. rewrite embed_denote, (addApply_denote _ z_intersection intersection_sound intersection_const), !embed_denote, intersection_denote.
        unfold z_intersection, meet_at. destruct opt_eq_dec as [E|NE]; [rewrite E, Z.eqb_refl; reflexivity|].
        destruct (denote a p) as [x|] eqn:Ex, (denote b p) as [y|] eqn:Ey.
        + apply denote_known in Ex; auto. apply denote_known in Ey; auto.
          destruct (Z.eqb_spec (id x) (id y)) as [E|]; auto. apply id_inj in E; congruence.
        + apply denote_known in Ex; auto. apply id_nonzero in Ex. destruct (Z.eqb_spec (id x) 0); congruence.
        + apply denote_known in Ey; auto. apply id_nonzero in Ey. destruct (Z.eqb_spec 0 (id y)); congruence.
        + congruence.
    Qed.
  End Pair.

  Lemma agree_wc SHIFT wc (act : A) : zfree wc -> 0 < SHIFT -> SHIFT mod 2 = 0 ->
    cudd_wc_to_BDD SHIFT wc (id act) = embed (c_wc_to_BDD A_eq_dec SHIFT wc act).
  Proof.
    intros Hz Hs He. unfold cudd_wc_to_BDD, c_wc_to_BDD. destruct (wc =? 0); [reflexivity|].
    assert (H : forall l b, b <> BNone ->
       fold_left (cudd_wc_step SHIFT wc) l (embed b) = embed (fold_left (c_wc_to_BDD_step A_eq_dec SHIFT wc) l b)).
    { induction l as [|x l IH]; intros b Hb; [reflexivity|]. cbn [fold_left].
      assert (E : cudd_wc_step SHIFT wc (embed b) x = embed (c_wc_to_BDD_step A_eq_dec SHIFT wc b x) /\
                  c_wc_to_BDD_step A_eq_dec SHIFT wc b x <> BNone).
      { unfold cudd_wc_step, c_wc_to_BDD_step, mk. destruct (_ =? 1); [|destruct (_ =? 2)].
        - destruct bdd_eq_dec; [congruence|]. split; [reflexivity|discriminate].
        - destruct bdd_eq_dec; [congruence|]. split; [reflexivity|discriminate].
        - auto. }
      destruct E as [-> E]. now apply IH. }
    apply (H _ (BTerm act)). discriminate.
  Qed.

  Lemma agree_to_wcs b : all_terms b -> (forall x, known x -> 0 <= id x < 2 ^ 26) -> forall wc,
    cudd_to_wcs_rec (embed b) wc = map (fun e => (fst e, (id (snd e), 0))) (BDD_to_wcs_rec b wc).
  Proof.
    intros Hb Hid. induction b as [|x|n z IHz o IHo]; intros wc.
    - reflexivity.
    - cbn [embed cudd_to_wcs_rec BDD_to_wcs_rec map fst snd]. rewrite encode_0. cbn in Hb.
      destruct (Z.eqb_spec (id x) 0) as [E|_]; [now apply id_nonzero in E|].
      rewrite <- (encode_0 (id x)) at 1. rewrite decode_encode by (auto; lia). reflexivity.
    - destruct Hb. cbn [embed cudd_to_wcs_rec BDD_to_wcs_rec]. rewrite !rec_none, map_app, IHz, IHo by auto. reflexivity.
  Qed.
  Lemma agree_bool b lo : all_terms b -> bdd_wf lo b -> cudd_bool (embed b) = bdd_bool A_eq_dec b.
  Proof.
    intros Hb Hw. unfold cudd_bool. destruct add_eq_dec as [E|NE].
    - change BK with (embed BNone) in E. apply embed_inj in E; auto; [|exact Logic.I]. subst. reflexivity.
    - destruct b as [|x|n z o]; [now elim NE| |].
      + reflexivity.
      + unfold bdd_bool, bdd_len. assert (H := walk_self A_eq_dec (BNode n z o) [] ltac:(discriminate)).
        destruct (walk A_eq_dec (BNode n z o) []); [destruct H|reflexivity].
  Qed.
  Context (differs : A).
  Hypothesis id_differs : id differs = 1.
  Hypothesis known_differs : known differs.

  Lemma all_terms_difference a : forall b, all_terms (difference A_eq_dec differs a b).
  Proof.
    induction a as [|x|na az IHz ao IHo]; induction b as [|y|nb bz IHbz bo IHbo]; cbn [difference];
      destruct bdd_eq_dec; cbn [all_terms]; auto; try (apply all_terms_mk; auto).
    destruct (na =? nb); [|destruct (na <? nb)]; apply all_terms_mk; auto.
  Qed.
  Lemma embed_mk n z o : all_terms z -> all_terms o -> embed (mk A_eq_dec n z o) = amk n (embed o) (embed z).
  Proof.
    intros Hz Ho. unfold mk, amk. destruct bdd_eq_dec as [->|]; destruct add_eq_dec as [E|]; try reflexivity; try congruence.
    apply embed_inj in E; auto. congruence.
  Qed.
  Lemma agree_difference a : forall b, all_terms a -> all_terms b ->
    embed (difference A_eq_dec differs a b) = addApply addDifference (embed a) (embed b).
  Proof.
    assert (D : embed (BTerm differs) = DIFFERS) by (cbn; now rewrite id_differs).
    induction a as [|x|na az IHz ao IHo]; induction b as [|y|nb bz IHbz bo IHbo]; intros Ka Kb;
      rewrite addApply_eq; unfold addDifference at 1; rewrite difference_eq;
      (destruct bdd_eq_dec as [E|NE]; [destruct add_eq_dec; [reflexivity|congruence]|]);
      (destruct add_eq_dec as [E|_]; [apply embed_inj in E; auto; congruence|]).
    - congruence.
    - destruct add_eq_dec as [_|X]; [apply D|now elim X].
    - destruct add_eq_dec as [_|X]; [apply D|now elim X].
    - cbn [embed is_const andb]. apply D.
    - destruct add_eq_dec; [apply D|]. cbn [embed is_const andb]. apply D.
    - destruct add_eq_dec as [E|_]; [exfalso; apply (embed_inj (BTerm x) BNone) in E; [discriminate|auto|exact Logic.I]|].
      cbn [embed is_const andb]. destruct Kb. rewrite embed_mk by apply all_terms_difference.
      rewrite IHbz, IHbo by auto. reflexivity.
    - cbn [embed is_const andb BK]. destruct Ka.
      rewrite embed_mk by apply all_terms_difference. rewrite (IHz BNone), (IHo BNone) by (auto; exact Logic.I). reflexivity.
    - destruct add_eq_dec as [E|_]; [discriminate E|]. cbn [embed is_const andb]. destruct Ka.
      rewrite embed_mk by apply all_terms_difference. rewrite (IHz (BTerm y)), (IHo (BTerm y)) by auto. reflexivity.
    - destruct add_eq_dec as [E|_]; [discriminate E|]. cbn [embed is_const andb]. destruct Ka as [K1 K2], Kb as [K3 K4].
      destruct (na =? nb); [|destruct (na <? nb)]; rewrite embed_mk by apply all_terms_difference.
      + now rewrite IHz, IHo.
      + rewrite (IHz (BNode nb bz bo)), (IHo (BNode nb bz bo)) by (cbn; auto). reflexivity.
      + rewrite IHbz, IHbo by (cbn; auto). reflexivity.
  Qed.

End Agree.

(** *** Numbering of actions *)
Section Ids.
  Context {A : Type} (A_eq_dec : forall x y : A, {x = y} + {x <> y}).
  Lemma index_of_spec a l : forall k i, index_of A_eq_dec a l k = Some i ->
    k <= i < k + Z.of_nat (List.length l) /\ nth_error l (Z.to_nat (i - k)) = Some a.
  Proof.
    induction l as [|x l IH]; intros k i; cbn [index_of]; [discriminate|]. destruct A_eq_dec as [->|].
    - intros [= <-]. cbn [List.length]. rewrite Z.sub_diag. cbn. split; [lia|reflexivity].
    - intros H. apply IH in H as [H1 H2]. cbn [List.length]. split; [lia|].
      replace (Z.to_nat (i - k)) with (S (Z.to_nat (i - (k + 1)))) by lia. exact H2.
  Qed.
  Lemma index_of_none a l : forall k, index_of A_eq_dec a l k = None -> ~ In a l.
  Proof.
    induction l as [|x l IH]; intros k; cbn [index_of]; [auto|]. destruct A_eq_dec; [discriminate|].
    intros H [E|E]; [auto|]. now apply (IH _ H).
  Qed.
  Lemma action_id_spec acts (a : A) acts' i : action_id A_eq_dec acts a = (acts', i) ->
    (exists ext, acts' = acts ++ ext) /\ (NoDup acts -> NoDup acts') /\
    1 <= i <= Z.of_nat (List.length acts') /\ term_to_action acts' i = Ok (Some a).
  Proof.
    unfold action_id, term_to_action. destruct (index_of A_eq_dec a acts 1) as [j|] eqn:E; intros [= <- <-].
    - apply index_of_spec in E as [H1 H2]. split; [exists []; now rewrite app_nil_r|]. split; [auto|]. split; [lia|].
      destruct (Z.eqb_spec j 0); [lia|]. destruct (Z.ltb_spec j 0); [lia|]. now rewrite H2.
    - apply index_of_none in E. split; [eauto|]. split.
      + intros N. apply NoDup_Add with (a := a) (l := acts); [|auto]. rewrite <- (app_nil_r acts) at 1. apply Add_app.
      + rewrite app_length. cbn [List.length]. split; [lia|].
        destruct (Z.eqb_spec (Z.of_nat (List.length acts) + 1) 0); [lia|].
        destruct (Z.ltb_spec (Z.of_nat (List.length acts) + 1) 0); [lia|].
        replace (Z.to_nat _) with (List.length acts) by lia. rewrite nth_error_app2 by lia. now rewrite Nat.sub_diag.
  Qed.
  (** Ids stay valid when more actions are numbered. *)
  Lemma term_to_action_ext acts ext t (a : A) : term_to_action acts t = Ok (Some a) -> term_to_action (acts ++ ext) t = Ok (Some a).
  Proof.
    unfold term_to_action. destruct (t =? 0); [discriminate|]. destruct (t <? 0); [discriminate|].
    destruct (nth_error acts _) as [x|] eqn:E; [|discriminate]. intros [= ->].
    rewrite nth_error_app1; [now rewrite E|]. apply nth_error_Some. congruence.
  Qed.
End Ids.
