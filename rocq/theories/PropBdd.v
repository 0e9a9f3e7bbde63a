(** Theorems for C11-C14 and C16-C19: the three BDD backends. *)
From Verif Require Import SpecBdd WildcardProofs MatchWcProofs BddProofs CuddProofs BddApi.
From Coq Require Import String.
Local Open Scope string_scope.
Local Open Scope Z_scope.
Local Opaque NB.

(** Example material: two overlapping wildcards over the lowest header positions and the
    BDDs they become. (Examples avoid running the 1584-step builders: the checker of the
    compiled files would need minutes; [wc_a_tree] and [wc_b_tree] are proved instead.) *)
Definition w_a : Z := Z.land WC_FULLWC (Z.lnot (Z.shiftl 2 ((NB - 1 - (NB - 1)) * 2))).   (* position 0 is 0 *)
Definition w_b : Z := Z.land WC_FULLWC (Z.lnot (Z.shiftl 1 ((NB - 1 - (NB - 2)) * 2))).   (* position 1 is 1 *)
Definition pk (n : Z) : packet := fun i => Z.testbit n i.
Definition t_a : bdd string := BNode 1583 (BTerm "drop") BNone.
Definition t_b : bdd string := BNode 1582 BNone (BTerm "fwd").
Definition f_a : add := ANode 1583 BK (AConst 2). Definition f_b : add := ANode 1582 (AConst 3) BK.
Definition e_a := EWc w_a "drop". Definition e_b := EWc w_b "fwd".
Notation s_meld := (meld string_dec). Notation s_sub := (subtract string_dec). Notation s_int := (intersection string_dec).
Notation s_diff := (difference string_dec "DIFFERS").

Lemma ok_inj {X} {x y : X} : Ok x = Ok y -> x = y.
Proof. intros H. now injection H. Qed.
Lemma w_a_accepts p : accepts w_a p <-> p 0 = false.
Proof.
  unfold w_a. rewrite clear_accepts by (rewrite ?NB_val; lia).
  replace (NB - 1 - (NB - 1)) with 0 by lia. pose proof (full_accepts p). cbn [Z.eqb Pos.eqb]. tauto.
Qed.
Lemma w_b_accepts p : accepts w_b p <-> p 1 = true.
Proof.
  unfold w_b. rewrite clear_accepts by (rewrite ?NB_val; lia).
  replace (NB - 1 - (NB - 2)) with 1 by lia. pose proof (full_accepts p). cbn [Z.eqb Pos.eqb]. tauto.
Qed.
Lemma t_wf : bdd_wf 0 t_a /\ bdd_wf 0 t_b.
Proof. unfold t_a, t_b. cbn [bdd_wf]. rewrite NB_val. repeat split; try discriminate; lia. Qed.
Lemma f_wf : add_wf 0 f_a /\ add_wf 0 f_b.
Proof. unfold f_a, f_b, BK. cbn [add_wf]. rewrite NB_val. repeat split; try discriminate; lia. Qed.
Example ex_wcs_ok : wc_ok w_a /\ wc_ok w_b.
Proof.
  assert (H : forall n k, 0 <= n < NB -> k = 1 \/ k = 2 -> wc_ok (Z.land WC_FULLWC (Z.lnot (Z.shiftl k ((NB - 1 - n) * 2))))).
  { intros n k Hn Hk.
    apply (to_wcs_ok string_dec (if k =? 2 then BNode n (BTerm "x") BNone else BNode n BNone (BTerm "x")) WC_FULLWC 0) with (a := "x").
    - destruct (k =? 2); cbn [bdd_wf]; repeat split; try discriminate; lia.
    - lia.
    - apply full_ok.
    - apply full_open.
    - destruct Hk as [->| ->]; cbn [Z.eqb Pos.eqb BDD_to_wcs_rec app]; left; reflexivity. }
  split; apply H; auto; rewrite NB_val; lia.
Qed.
Example wc_a_tree : wc_to_BDD w_a "drop" = Ok t_a.
Proof.
  destruct (wc_to_BDD_ok string_dec w_a "drop" (proj1 ex_wcs_ok)) as [b [E [W D]]]. rewrite E. f_equal.
  apply (denote_inj string_dec 0); [auto|apply t_wf|]. intros p. destruct (D p) as [D1 D2]. pose proof (w_a_accepts p) as Hw.
  unfold t_a. cbn [denote]. replace (NB - 1 - 1583) with 0 by (rewrite NB_val; reflexivity).
  destruct (p 0); [apply D2; rewrite Hw; discriminate|now apply D1, Hw].
Qed.
Example wc_b_tree : wc_to_BDD w_b "fwd" = Ok t_b.
Proof.
  destruct (wc_to_BDD_ok string_dec w_b "fwd" (proj2 ex_wcs_ok)) as [b [E [W D]]]. rewrite E. f_equal.
  apply (denote_inj string_dec 0); [auto|apply t_wf|]. intros p. destruct (D p) as [D1 D2]. pose proof (w_b_accepts p) as Hw.
  unfold t_b. cbn [denote]. replace (NB - 1 - 1582) with 1 by (rewrite NB_val; reflexivity).
  destruct (p 1); [now apply D1, Hw|apply D2; rewrite Hw; discriminate].
Qed.

Local Opaque w_a w_b.

(** ** C11 *)
Theorem C11_wc_to_BDD_is_the_match : forall (A : Type) (eqd : forall x y : A, {x = y} + {x <> y}) wc (act : A), wc_ok wc ->
  exists b, wc_to_BDD wc act = Ok b /\
  forall p, (accepts wc p -> denote b p = Some act) /\ (~ accepts wc p -> denote b p = None).
Proof.
  intros A eqd wc act H. destruct (wc_to_BDD_ok eqd wc act H) as [b [E [_ D]]]. exists b. auto.
Qed.
Theorem C11_cbdd_builds_the_same : forall (A : Type) (eqd : forall x y : A, {x = y} + {x <> y}) SHIFT wc (act : A),
  0 < SHIFT -> SHIFT mod 2 = 0 -> wc_ok wc -> wc_to_BDD wc act = Ok (c_wc_to_BDD eqd SHIFT wc act).
Proof. exact (@c_wc_to_BDD_ok). Qed.
Theorem C11_cudd_wc_to_BDD_is_the_match : forall SHIFT wc t,
  0 < SHIFT -> SHIFT mod 2 = 0 -> wc_ok wc -> t <> 0 ->
  forall p, (accepts wc p -> adenote (cudd_wc_to_BDD SHIFT wc t) p = t) /\
            (~ accepts wc p -> adenote (cudd_wc_to_BDD SHIFT wc t) p = 0).
Proof. intros. now apply cudd_wc_ok. Qed.
Theorem C11_empty_wildcard : forall (A : Type) (eqd : forall x y : A, {x = y} + {x <> y}) SHIFT (act : A) t,
  wc_to_BDD 0 act = Ok BNone /\ c_wc_to_BDD eqd SHIFT 0 act = BNone /\ cudd_wc_to_BDD SHIFT 0 t = BK.
Proof. repeat split. Qed.
(** A wildcard with a z tbit: bdd.py stops with an assertion. *)
Theorem C11_z_tbit_is_rejected : forall (A : Type) (eqd : forall x y : A, {x = y} + {x <> y}) wc (act : A), wc <> 0 -> ~ zfree wc ->
  wc_to_BDD wc act = Err AssertionError.
Proof. exact (@wc_to_BDD_z). Qed.
Example C11_ex : wc_to_BDD w_a "drop" = Ok t_a /\ c_wc_to_BDD string_dec 30 w_a "drop" = t_a /\
  denote t_a (pk 2) = Some "drop" /\ denote t_a (pk 1) = None /\
  adenote (cudd_wc_to_BDD 30 w_b 7) (pk 2) = 7 /\ adenote (cudd_wc_to_BDD 30 w_b 7) (pk 1) = 0.
Proof.
  split; [exact wc_a_tree|]. split.
  - assert (E := C11_cbdd_builds_the_same string string_dec 30 w_a "drop" ltac:(lia) eq_refl (proj1 ex_wcs_ok)).
    rewrite wc_a_tree in E. exact (eq_sym (ok_inj E)).
  - split; [vm_compute; reflexivity|]. split; [vm_compute; reflexivity|]. split.
    + apply C11_cudd_wc_to_BDD_is_the_match; [lia|reflexivity|apply ex_wcs_ok|lia|]. now apply w_b_accepts.
    + apply C11_cudd_wc_to_BDD_is_the_match; [lia|reflexivity|apply ex_wcs_ok|lia|]. rewrite w_b_accepts. discriminate.
Qed.
Print Assumptions C11_wc_to_BDD_is_the_match.
Print Assumptions C11_cbdd_builds_the_same.
Print Assumptions C11_cudd_wc_to_BDD_is_the_match.
Print Assumptions C11_empty_wildcard.
Print Assumptions C11_z_tbit_is_rejected.

(** ** C12 *)
Theorem C12_meld_is_priority_union : forall (A : Type) (eqd : forall x y : A, {x = y} + {x <> y}) (a b : bdd A) p,
  (forall t, denote a p = Some t -> denote (meld eqd a b) p = Some t) /\
  (denote a p = None -> denote (meld eqd a b) p = denote b p).
Proof.
  intros A eqd a b p. rewrite meld_denote. unfold orelse. split; [intros t ->; reflexivity|intros ->; reflexivity].
Qed.
Theorem C12_cudd_meld_is_priority_union : forall f g p,
  (adenote f p <> 0 -> adenote (addApply addMeld f g) p = adenote f p) /\
  (adenote f p = 0 -> adenote (addApply addMeld f g) p = adenote g p).
Proof.
  intros f g p. rewrite (addApply_denote _ z_meld meld_sound meld_const). unfold z_meld.
  split; intros H; destruct (Z.eqb_spec (adenote f p) 0); congruence.
Qed.
(** Packet 2 has position 0 = 0 and 1 = 1: both rules match and the first wins. *)
Example C12_ex : denote (s_meld t_a t_b) (pk 2) = Some "drop" /\ denote (s_meld t_b t_a) (pk 2) = Some "fwd" /\
  denote (s_meld t_a t_b) (pk 3) = Some "fwd" /\ denote (s_meld t_a t_b) (pk 1) = None.
Proof. vm_compute. repeat split. Qed.
Print Assumptions C12_meld_is_priority_union.
Print Assumptions C12_cudd_meld_is_priority_union.

(** ** C13 *)
Theorem C13_subtract_and_intersection_are_pointwise : forall (A : Type) (eqd : forall x y : A, {x = y} + {x <> y}) (a b : bdd A) p,
  (denote a p = denote b p -> denote (subtract eqd a b) p = None /\ denote (intersection eqd a b) p = denote a p) /\
  (denote a p <> denote b p -> denote (subtract eqd a b) p = denote a p /\ denote (intersection eqd a b) p = None).
Proof.
  intros A eqd a b p. rewrite subtract_denote, intersection_denote. unfold minus_at, meet_at.
  destruct opt_eq_dec as [E|NE]; split; intros H; try congruence; auto.
Qed.
Theorem C13_cudd_subtract_and_intersection_are_pointwise : forall f g p,
  (adenote f p = adenote g p -> adenote (addApply addSubtract f g) p = 0 /\ adenote (addApply addIntersection f g) p = adenote f p) /\
  (adenote f p <> adenote g p -> adenote (addApply addSubtract f g) p = adenote f p /\ adenote (addApply addIntersection f g) p = 0).
Proof.
  intros f g p. rewrite (addApply_denote _ z_subtract subtract_sound subtract_const),
    (addApply_denote _ z_intersection intersection_sound intersection_const). unfold z_subtract, z_intersection.
  destruct (Z.eqb_spec (adenote f p) (adenote g p)); split; intros H; try congruence; auto.
Qed.
Theorem C13_truth_value : forall (A : Type) (eqd : forall x y : A, {x = y} + {x <> y}) (b : bdd A) f,
  (bdd_wf 0 b -> (bdd_bool eqd b = true <-> exists p, denote b p <> None)) /\
  (add_wf 0 f -> (cudd_bool f = false <-> forall p, adenote f p = 0)).
Proof.
  intros A eqd b f. split; [apply bdd_bool_spec|]. intros Hf. unfold cudd_bool. destruct add_eq_dec as [->|NE].
  - split; [reflexivity|reflexivity].
  - split; [discriminate|]. intros H. exfalso. apply NE. apply (adenote_inj 0); cbn; auto.
Qed.
(** len(): the distinct nodes, each counted once. *)
Theorem C13_len_counts_distinct_nodes : forall (A : Type) (eqd : forall x y : A, {x = y} + {x <> y}) (b : bdd A),
  exists l, NoDup l /\ (forall x, In x l <-> subnode x b) /\ bdd_len eqd b = List.length l.
Proof. intros A eqd b. exists (walk eqd b []). destruct (len_spec eqd b). auto. Qed.
Example C13_ex : denote (s_sub (s_meld t_a t_b) t_a) (pk 2) = None /\
  denote (s_sub (s_meld t_a t_b) t_a) (pk 3) = Some "fwd" /\
  denote (s_int (s_meld t_a t_b) t_a) (pk 2) = Some "drop" /\
  denote (s_int t_b t_a) (pk 2) = None /\
  bdd_len string_dec (s_meld t_a t_b) = 5%nat /\
  bdd_bool string_dec (s_sub t_a t_a) = false.
Proof. vm_compute. repeat split. Qed.
Print Assumptions C13_subtract_and_intersection_are_pointwise.
Print Assumptions C13_cudd_subtract_and_intersection_are_pointwise.
Print Assumptions C13_truth_value.
Print Assumptions C13_len_counts_distinct_nodes.

(** ** C14 *)
Theorem C14_equality_is_semantic : forall (A : Type) (eqd : forall x y : A, {x = y} + {x <> y}) (differs : A) e1 e2,
  bexpr_ok e1 -> bexpr_ok e2 ->
  exists b1 b2, beval eqd differs e1 = Ok b1 /\ beval eqd differs e2 = Ok b2 /\
    (b1 = b2 <-> forall p, denote b1 p = denote b2 p).
Proof.
  intros A eqd d e1 e2 H1 H2. destruct (beval_total eqd d e1 H1) as [b1 [E1 _]], (beval_total eqd d e2 H2) as [b2 [E2 _]].
  exists b1, b2. split; [auto|]. split; [auto|]. exact (api_equality eqd d e1 e2 b1 b2 H1 H2 E1 E2).
Qed.
(** The result of an API expression means what the expression says. *)
Theorem C14_api_meaning : forall (A : Type) (eqd : forall x y : A, {x = y} + {x <> y}) (differs : A) e,
  bexpr_ok e -> exists b, beval eqd differs e = Ok b /\ forall p, bmeans differs e p (denote b p).
Proof.
  intros A eqd d e H. destruct (beval_total eqd d e H) as [b [E [_ M]]]. eauto.
Qed.
Theorem C14_cudd_equality_is_semantic : forall f g, add_wf 0 f -> add_wf 0 g ->
  (f = g <-> forall p, adenote f p = adenote g p).
Proof. exact (adenote_inj 0). Qed.
(** What the CUDD module builds is ordered and reduced. *)
Theorem C14_cudd_operations_stay_reduced : forall f g, add_wf 0 f -> add_wf 0 g ->
  add_wf 0 (addApply addMeld f g) /\ add_wf 0 (addApply addSubtract f g) /\
  add_wf 0 (addApply addIntersection f g) /\ add_wf 0 (addApply addDiffTagged f g) /\
  add_wf 0 (addApply addDifference f g).
Proof.
  intros f g Hf Hg. repeat split; apply addApply_wf; auto; intros.
  - now apply (meld_op_wf _ _ _ _ H). - now apply (subtract_op_wf _ _ _ _ H).
  - now apply (intersection_op_wf _ _ _ _ H). - now apply (tagged_op_wf _ _ _ _ H).
  - unfold addDifference in H. destruct add_eq_dec; [injection H as <-; exact Logic.I|].
    destruct add_eq_dec; [injection H as <-; exact Logic.I|].
    destruct (_ && _); [injection H as <-; exact Logic.I|discriminate].
Qed.
(** Two different programs, one function: disjoint rules may be melded in either order. *)
Example C14_ex : s_meld t_a (s_sub t_b (s_int t_b t_a)) = s_meld t_a t_b /\
  (if bdd_eq_dec string_dec (s_meld t_a t_b) (s_meld t_b t_a) then true else false) = false /\ bexpr_ok (EAdd e_a e_b).
Proof.
  split; [vm_compute; reflexivity|]. split.
  - vm_compute. reflexivity.
  - exact (conj (or_intror (proj1 ex_wcs_ok)) (or_intror (proj2 ex_wcs_ok))).
Qed.
Print Assumptions C14_equality_is_semantic.
Print Assumptions C14_api_meaning.
Print Assumptions C14_cudd_equality_is_semantic.
Print Assumptions C14_cudd_operations_stay_reduced.

(** ** C16 *)
(** Full claim: difference(a,b) is defined on a packet iff a and b differ there. It is false:
    when a is entirely undefined below some point the whole region is reported, including
    packets b leaves undefined too. *)
Theorem C16_difference_exact_refuted : exists (e1 e2 : bexpr string) p, bexpr_ok e1 /\ bexpr_ok e2 /\
  exists b1 b2 d, beval string_dec "DIFFERS" e1 = Ok b1 /\ beval string_dec "DIFFERS" e2 = Ok b2 /\
  beval string_dec "DIFFERS" (EDifference e1 e2) = Ok d /\
  denote b1 p = denote b2 p /\ denote d p = Some "DIFFERS".
Proof.
  exists EEmpty, e_a, (pk 1). split; [exact Logic.I|]. split; [exact (or_intror (proj1 ex_wcs_ok))|].
  exists BNone, t_a, (BTerm "DIFFERS"). cbn [beval e_a]. rewrite wc_a_tree. vm_compute. repeat split.
Qed.
(** What does hold: nothing but DIFFERS is reported, no difference is missed, and nothing is
    reported where a is defined and b agrees. *)
Theorem C16_difference_sound_partial : forall (A : Type) (eqd : forall x y : A, {x = y} + {x <> y}) (differs : A) (a b : bdd A) p,
  (denote (difference eqd differs a b) p = None \/ denote (difference eqd differs a b) p = Some differs) /\
  (denote a p <> denote b p -> denote (difference eqd differs a b) p = Some differs) /\
  (denote a p <> None -> denote a p = denote b p -> denote (difference eqd differs a b) p = None).
Proof. intros. apply difference_denote. Qed.
(** It is exact when b decides nothing that a leaves open (in particular for total tables). *)
Theorem C16_difference_exact_partial : forall (A : Type) (eqd : forall x y : A, {x = y} + {x <> y}) (differs : A) (a b : bdd A),
  bdd_wf 0 a -> bdd_wf 0 b -> (forall p, denote a p = None -> denote b p = None) ->
  forall p, (denote (difference eqd differs a b) p = Some differs <-> denote a p <> denote b p).
Proof.
  intros A eqd d a b Wa Wb H p. rewrite (difference_exact eqd d a b 0 Wa Wb H p).
  destruct opt_eq_dec; split; intros; congruence.
Qed.
(** So an empty difference always means equal tables. *)
Theorem C16_empty_difference_means_equal : forall (A : Type) (eqd : forall x y : A, {x = y} + {x <> y}) (differs : A) (a b : bdd A),
  bdd_wf 0 a -> bdd_wf 0 b -> (difference eqd differs a b = BNone <-> a = b).
Proof.
  intros A eqd d a b Wa Wb. split.
  - intros E. apply (denote_inj eqd 0); auto. intros p. destruct (difference_denote eqd d p a b) as [_ [H _]].
    rewrite E in H. destruct (opt_eq_dec eqd (denote a p) (denote b p)); auto. specialize (H n). discriminate.
  - intros ->. rewrite difference_eq. destruct bdd_eq_dec; congruence.
Qed.
Example C16_ex : denote (s_diff (s_meld t_a (BTerm "x")) (s_meld t_b (BTerm "x"))) (pk 2) = Some "DIFFERS" /\
  denote (s_diff (s_meld t_a (BTerm "x")) (s_meld t_b (BTerm "x"))) (pk 1) = None.
Proof. vm_compute. split; reflexivity. Qed.
Print Assumptions C16_difference_exact_refuted.
Print Assumptions C16_difference_sound_partial.
Print Assumptions C16_difference_exact_partial.
Print Assumptions C16_empty_difference_means_equal.

(** ** C17 *)
Theorem C17_difftagged_carries_both_actions : forall f g p,
  (forall q, 0 <= adenote f q < 2 ^ 26) -> (forall q, 0 <= adenote g q < 2 ^ 26) ->
  (adenote f p = adenote g p -> adenote (addApply addDiffTagged f g) p = 0) /\
  (adenote f p <> adenote g p -> adenote (addApply addDiffTagged f g) p <> 0 /\
     decode_terminal (adenote (addApply addDiffTagged f g) p) = (adenote f p, adenote g p)).
Proof. exact difftagged_spec. Qed.
Theorem C17_difftagged_empty_iff_equal : forall f g, add_wf 0 f -> add_wf 0 g ->
  (forall q, 0 <= adenote f q < 2 ^ 26) -> (forall q, 0 <= adenote g q < 2 ^ 26) ->
  (cudd_bool (addApply addDiffTagged f g) = false <-> f = g).
Proof.
  intros f g Wf Wg Hf Hg. rewrite <- (difftagged_BK f g Wf Wg Hf Hg). unfold cudd_bool.
  destruct add_eq_dec; split; auto; congruence.
Qed.
(** The packing is lossless. *)
Theorem C17_terminal_packing_injective : forall a b c d,
  0 <= a < 2 ^ 26 -> 0 <= b < 2 ^ 26 -> 0 <= c < 2 ^ 26 -> 0 <= d < 2 ^ 26 ->
  encode_terminal a b = encode_terminal c d -> a = c /\ b = d.
Proof.
  intros a b c d Ha Hb Hc Hd E. assert (X := decode_encode a b Ha Hb). rewrite E, decode_encode in X by auto.
  injection X as -> ->. auto.
Qed.
(** A packed terminal fits the 53 bit mantissa of the double CUDD stores it in. *)
Theorem C17_terminal_fits_a_double : forall a b, 0 <= a < 2 ^ 26 -> 0 <= b < 2 ^ 26 -> 0 <= encode_terminal a b < 2 ^ 52.
Proof. intros a b Ha Hb. rewrite encode_add by lia. lia. Qed.
(** The ids handed out by cuddbdd.py: distinct actions get distinct positive ids, and an id
    keeps meaning the same action when more actions are numbered. *)
Theorem C17_action_ids : forall (A : Type) (eqd : forall x y : A, {x = y} + {x <> y}) acts (a : A) acts' i,
  action_id eqd acts a = (acts', i) ->
  (exists ext, acts' = acts ++ ext)%list /\ (NoDup acts -> NoDup acts') /\ 1 <= i /\
  (forall ext, term_to_action (acts' ++ ext)%list i = Ok (Some a)).
Proof.
  intros A eqd acts a acts' i E. destruct (action_id_spec eqd acts a acts' i E) as [H1 [H2 [H3 H4]]].
  split; [auto|]. split; [auto|]. split; [lia|]. intros ext. now apply term_to_action_ext.
Qed.
(** [f_a] and [f_b] are ordered and reduced: [f_wf]. *)
Example C17_ex : adenote (addApply addDiffTagged f_a f_b) (pk 2) = encode_terminal 2 3 /\
  adenote (addApply addDiffTagged f_a f_b) (pk 1) = 0 /\ cudd_bool (addApply addDiffTagged f_a f_a) = false /\
  decode_terminal (encode_terminal 67108863 67108862) = (67108863, 67108862) /\
  snd (action_id string_dec (fst (action_id string_dec ["DIFFERS"] "a")) "b") = 3.
Proof. vm_compute. repeat split. Qed.
Print Assumptions C17_difftagged_carries_both_actions.
Print Assumptions C17_difftagged_empty_iff_equal.
Print Assumptions C17_terminal_packing_injective.
Print Assumptions C17_terminal_fits_a_double.
Print Assumptions C17_action_ids.

(** ** C18 *)
Theorem C18_BDD_to_wcs_partitions : forall (A : Type) (eqd : forall x y : A, {x = y} + {x <> y}) (b : bdd A), bdd_wf 0 b ->
  (forall w a, In (w, a) (BDD_to_wcs b) -> wc_ok w /\ exists p, accepts w p) /\
  (forall i j w x w' x' p, i <> j -> nth_error (BDD_to_wcs b) i = Some (w, x) -> nth_error (BDD_to_wcs b) j = Some (w', x') ->
     accepts w p -> accepts w' p -> False) /\
  (forall p a, denote b p = Some a <-> exists w, In (w, a) (BDD_to_wcs b) /\ accepts w p).
Proof.
  intros A eqd b H. destruct (BDD_to_wcs_partition eqd b H) as [H1 [H2 H3]]. split; [|auto].
  intros w a Hin. specialize (H1 w a Hin). split; [auto|]. apply zfree_nonempty, H1.
Qed.
Theorem C18_cudd_to_wcs_partitions : forall f, add_wf 0 f ->
  (forall w t, In (w, t) (cudd_to_wcs f) -> wc_ok w /\ exists p, accepts w p) /\
  (forall i j w x w' x' p, i <> j -> nth_error (cudd_to_wcs f) i = Some (w, x) -> nth_error (cudd_to_wcs f) j = Some (w', x') ->
     accepts w p -> accepts w' p -> False) /\
  (forall p t, adenote f p <> 0 /\ decode_terminal (adenote f p) = t <-> exists w, In (w, t) (cudd_to_wcs f) /\ accepts w p).
Proof.
  intros f H. destruct (cudd_to_wcs_partition f H) as [H1 [H2 H3]]. split; [|auto].
  intros w a Hin. specialize (H1 w a Hin). split; [auto|]. apply zfree_nonempty, H1.
Qed.
Theorem C18_iterator_length : forall f, size_rec f = Z.of_nat (List.length (cudd_to_wcs f)).
Proof. intros f. apply size_rec_length. Qed.
Example C18_ex : List.length (BDD_to_wcs (s_meld t_a t_b)) = 3%nat /\
  map snd (BDD_to_wcs (s_meld t_a t_b)) = ["drop"; "drop"; "fwd"] /\
  size_rec (addApply addMeld f_a f_b) = 3 /\ map snd (cudd_to_wcs (addApply addDiffTagged f_a f_b)) = [(2, 0); (2, 3); (0, 3)].
Proof. vm_compute. repeat split. Qed.
Print Assumptions C18_BDD_to_wcs_partitions.
Print Assumptions C18_cudd_to_wcs_partitions.
Print Assumptions C18_iterator_length.

(** ** C19 *)
(** [represents id b f]: the CUDD diagram [f] gives every packet the id of the action the
    tree [b] gives it (0 for undefined). *)
Theorem C19_backends_agree : forall (A : Type) (eqd : forall x y : A, {x = y} + {x <> y}) (id : A -> Z) (differs : A)
    (known : A -> Prop) (a b : bdd A) (f g : add),
  good_ids id known -> bdd_wf 0 a -> bdd_wf 0 b -> add_wf 0 f -> add_wf 0 g ->
  uses known a -> uses known b -> represents id a f -> represents id b g ->
  represents id (meld eqd a b) (addApply addMeld f g) /\
  represents id (subtract eqd a b) (addApply addSubtract f g) /\
  represents id (intersection eqd a b) (addApply addIntersection f g) /\
  (id differs = 1 -> known differs -> represents id (difference eqd differs a b) (addApply addDifference f g)) /\
  (a = b <-> f = g).
Proof.
  intros A eqd id d k a b f g G Wa Wb Wf Wg Ua Ub Ra Rb.
  destruct (backends_agree_basic eqd id k G a b f g) as [H1 [H2 H3]]; auto.
  split; [auto|]. split; [auto|]. split; [auto|]. split.
  - intros D1 D2. now apply (backends_agree_difference eqd id k G a b f g Wa Wb Wf Wg Ua Ub Ra Rb d).
  - apply backends_agree_equality with (id := id) (known := k); auto.
Qed.
(** Enumeration and truth value agree as well. *)
Theorem C19_backends_enumerate_the_same : forall (A : Type) (eqd : forall x y : A, {x = y} + {x <> y}) (id : A -> Z)
    (known : A -> Prop) (a : bdd A) (f : add),
  good_ids id known -> bdd_wf 0 a -> add_wf 0 f -> uses known a -> represents id a f ->
  (forall x, known x -> 0 <= id x < 2 ^ 26) ->
  cudd_to_wcs f = map (fun e => (fst e, (id (snd e), 0))) (BDD_to_wcs a) /\ cudd_bool f = bdd_bool eqd a.
Proof.
  intros A eqd id k a f G Wa Wf Ua Ra Hid. apply (backends_agree_enumeration eqd id k G a f); auto.
Qed.
(** The builders start the agreement off: one id per action, one wildcard. *)
Theorem C19_builders_agree : forall (A : Type) (eqd : forall x y : A, {x = y} + {x <> y}) (id : A -> Z) SHIFT wc (act : A),
  0 < SHIFT -> SHIFT mod 2 = 0 -> wc_ok wc -> id act <> 0 ->
  exists b, wc_to_BDD wc act = Ok b /\ c_wc_to_BDD eqd SHIFT wc act = b /\ bdd_wf 0 b /\
    add_wf 0 (cudd_wc_to_BDD SHIFT wc (id act)) /\ represents id b (cudd_wc_to_BDD SHIFT wc (id act)).
Proof.
  intros A eqd id SH wc act Hs He Hw Hi. destruct (wc_to_BDD_ok eqd wc act Hw) as [b [E [W D]]].
  destruct (cudd_wc_ok SH wc (id act) Hs He Hw Hi) as [CW CD].
  exists b. split; [auto|]. split; [rewrite (c_wc_to_BDD_ok eqd SH wc act Hs He Hw) in E; now injection E|].
  split; [auto|]. split; [auto|]. intros p. destruct (D p) as [D1 D2], (CD p) as [C1 C2].
  destruct (acceptsb wc p) eqn:Ea.
  - apply acceptsb_spec in Ea. now rewrite C1, D1.
  - assert (N : ~ accepts wc p) by (intros X; apply acceptsb_spec in X; congruence). now rewrite C2, D2.
Qed.
Definition ex_id (s : string) : Z := if string_dec s "DIFFERS" then 1 else if string_dec s "drop" then 2 else 3.
Example C19_ex : good_ids ex_id (fun s => s = "DIFFERS" \/ s = "drop" \/ s = "fwd") /\
  addApply addDifference f_a f_b = embed ex_id (s_diff t_a t_b) /\
  addApply addMeld f_a f_b = embed ex_id (s_meld t_a t_b).
Proof.
  split; [|vm_compute; split; reflexivity]. split.
  - intros x y [->|[->| ->]] [->|[->| ->]]; vm_compute; congruence.
  - intros x [->|[->| ->]]; vm_compute; congruence.
Qed.
Print Assumptions C19_backends_agree.
Print Assumptions C19_backends_enumerate_the_same.
Print Assumptions C19_builders_agree.
