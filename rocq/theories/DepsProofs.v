(** Dependencies: lemmas about masks, stable sorting and the parent loops. *)
From Coq Require Import Lia Permutation Sorted.
From Coq Require Import ZifyBool ZifyNat ZifyN.
From Verif Require Import SpecBdd WildcardProofs MatchProofs HSProofs BddProofs CuddProofs BddApi SpecPipeline MergeProofs Deps SpecDeps.
Local Open Scope string_scope.
Local Open Scope list_scope.
Local Open Scope Z_scope.
Local Opaque NB WC_FULLWC layout oxm_fields registry_init.

(** ** Masks: BDDs whose terminals are 0 and [one] *)
Section Masks.
  Context (one : Z) (one_nz : one <> 0).
  Definition on (f : add) (p : packet) : Prop := adenote f p <> 0.
  Definition mask (f : add) : Prop := add_wf 0 f /\ forall p, adenote f p = 0 \/ adenote f p = one.

  Lemma mask_BK : mask BK.
  Proof. split; [exact Logic.I|]. intros p. now left. Qed.
  Lemma on_BK p : ~ on BK p.
  Proof. unfold on. cbn. auto. Qed.
  Lemma on_dec f p : {on f p} + {~ on f p}.
  Proof. unfold on. destruct (Z.eq_dec (adenote f p) 0); [right|left]; auto. Qed.

  Lemma mask_inter f g : mask f -> mask g -> mask (binter f g) /\ forall p, on (binter f g) p <-> on f p /\ on g p.
  Proof.
    intros [Wf Vf] [Wg Vg].
    assert (D : forall p, adenote (binter f g) p = z_intersection (adenote f p) (adenote g p)).
    { intros p. apply (addApply_denote _ z_intersection intersection_sound intersection_const). }
    split; [split|].
    - apply addApply_wf; auto. intros. eapply intersection_op_wf; eauto.
    - intros p. rewrite D. unfold z_intersection. destruct (_ =? _); auto.
    - intros p. unfold on. rewrite D. unfold z_intersection. specialize (Vf p). specialize (Vg p).
      destruct (Z.eqb_spec (adenote f p) (adenote g p)); lia.
  Qed.
  Lemma mask_sub f g : mask f -> mask g -> mask (bsub f g) /\ forall p, on (bsub f g) p <-> on f p /\ ~ on g p.
  Proof.
    intros [Wf Vf] [Wg Vg].
    assert (D : forall p, adenote (bsub f g) p = z_subtract (adenote f p) (adenote g p)).
    { intros p. apply (addApply_denote _ z_subtract subtract_sound subtract_const). }
    split; [split|].
    - apply addApply_wf; auto. intros. eapply subtract_op_wf; eauto.
    - intros p. rewrite D. unfold z_subtract. destruct (_ =? _); auto.
    - intros p. unfold on. rewrite D. unfold z_subtract. specialize (Vf p). specialize (Vg p).
      destruct (Z.eqb_spec (adenote f p) (adenote g p)); lia.
  Qed.
  Lemma mask_meld f g : mask f -> mask g -> mask (bmeld f g) /\ forall p, on (bmeld f g) p <-> on f p \/ on g p.
  Proof.
    intros [Wf Vf] [Wg Vg].
    assert (D : forall p, adenote (bmeld f g) p = z_meld (adenote f p) (adenote g p)).
    { intros p. apply (addApply_denote _ z_meld meld_sound meld_const). }
    split; [split|].
    - apply addApply_wf; auto. intros. eapply meld_op_wf; eauto.
    - intros p. rewrite D. unfold z_meld. specialize (Vf p). specialize (Vg p). destruct (_ =? _); auto.
    - intros p. unfold on. rewrite D. unfold z_meld. specialize (Vf p). specialize (Vg p).
      destruct (Z.eqb_spec (adenote f p) 0); lia.
  Qed.
  Lemma cudd_bool_on f : add_wf 0 f -> (cudd_bool f = true <-> exists p, on f p).
  Proof.
    intros W. unfold cudd_bool. destruct add_eq_dec as [->|NE].
    - split; [discriminate|]. intros [p H]. now elim (on_BK p).
    - split; [intros _|auto]. assert (Wb := unadd0_wf f 0 W).
      assert (S := bdd_bool_spec Z.eq_dec 0 (unadd0 f) Wb).
      assert (B : bdd_bool Z.eq_dec (unadd0 f) = true).
      { destruct (bdd_bool Z.eq_dec (unadd0 f)) eqn:E; [reflexivity|]. exfalso. apply NE.
        assert (H : forall p, adenote f p = 0).
        { intros p. destruct (Z.eq_dec (adenote f p) 0) as [H|H]; [exact H|]. exfalso.
          assert (X : false = true); [|discriminate]. apply S. exists p. rewrite unadd0_denote.
          apply Z.eqb_neq in H. rewrite H. discriminate. }
        apply (adenote_inj 0); [auto|exact Logic.I|]. intros p. rewrite H. reflexivity. }
      apply S in B as [p H]. exists p. rewrite unadd0_denote in H. unfold on. destruct (Z.eqb_spec (adenote f p) 0); congruence.
  Qed.
  Lemma cudd_bool_off f : add_wf 0 f -> (cudd_bool f = false <-> forall p, ~ on f p).
  Proof.
    intros W. assert (H := cudd_bool_on f W). destruct (cudd_bool f).
    - split; [discriminate|]. intros N. exfalso. destruct H as [[p X] _]; [reflexivity|]. now apply (N p).
    - split; [|reflexivity]. intros _ p X. assert (false = true) by (apply H; eauto). discriminate.
  Qed.
  Lemma mask_ext f g : mask f -> mask g -> (forall p, on f p <-> on g p) -> f = g.
  Proof.
    intros [Wf Vf] [Wg Vg] H. apply (adenote_inj 0); auto. intros p. specialize (H p). unfold on in H.
    destruct (Vf p) as [A|A], (Vg p) as [B|B]; rewrite A, B in *; auto; exfalso; tauto.
  Qed.
End Masks.

(** ** The stable sort *)
Section Sort.
  Context {A : Type} (le : A -> A -> bool).
  Context (le_total : forall x y, le x y = false -> le y x = true) (le_trans : forall x y z, le x y = true -> le y z = true -> le x z = true).
  Lemma insert_by_perm x l : Permutation (insert_by le x l) (x :: l).
  Proof. induction l as [|y l IH]; cbn [insert_by]; [reflexivity|]. destruct (le x y); [reflexivity|]. rewrite IH. apply perm_swap. Qed.
  Lemma sort_by_perm l : Permutation (sort_by le l) l.
  Proof. induction l as [|x l IH]; [constructor|]. cbn [sort_by fold_right]. fold (sort_by le l). rewrite insert_by_perm. now constructor. Qed.
  Lemma insert_by_sorted x l : StronglySorted (fun a b => le a b = true) l -> StronglySorted (fun a b => le a b = true) (insert_by le x l).
  Proof.
    induction 1 as [|y l S0 IH F]; cbn [insert_by]; [repeat constructor|]. destruct (le x y) eqn:E.
    - constructor; [now constructor|]. constructor; [auto|]. eapply Forall_impl; [|exact F]. cbn. intros a Ha. eapply le_trans; eauto.
    - constructor; [auto|]. apply Forall_forall. intros a Ha.
      apply (Permutation_in _ (insert_by_perm x l)) in Ha as [<-|Ha]; [now apply le_total|]. rewrite Forall_forall in F. auto.
  Qed.
  Lemma sort_by_sorted l : StronglySorted (fun a b => le a b = true) (sort_by le l).
  Proof. induction l as [|x l IH]; [constructor|]. cbn. now apply insert_by_sorted. Qed.
  Lemma find_insert f x l : StronglySorted (fun a b => le a b = true) l ->
    find f (insert_by le x l) = if f x then match find f l with Some y => if le x y then Some x else Some y | None => Some x end else find f l.
  Proof.
    induction 1 as [|y l S0 IH F]; cbn [insert_by find]; [destruct (f x); reflexivity|]. destruct (le x y) eqn:E; cbn [find].
    - destruct (f x) eqn:Fx; [|reflexivity]. destruct (f y) eqn:Fy; [now rewrite E|].
      destruct (find f l) as [z|] eqn:Fz; [|reflexivity]. apply find_some in Fz as [Hz _]. rewrite Forall_forall in F.
      rewrite (le_trans x y z); auto.
    - destruct (f y) eqn:Fy; [|exact IH]. destruct (f x); [now rewrite E|reflexivity].
  Qed.
  (** what the first hit in the sorted list is, in terms of the unsorted list *)
  Lemma find_sort f q l x : find f (sort_by le (filter q l)) = Some x <->
    exists l1 l2, l = l1 ++ x :: l2 /\ q x = true /\ f x = true /\
    (forall y, In y l1 -> q y = true -> f y = true -> le y x = false) /\ (forall y, In y l2 -> q y = true -> f y = true -> le x y = true).
  Proof.
    revert x. induction l as [|a l IH]; intros x.
    - cbn. split; [discriminate|]. intros (l1 & l2 & E & _). now destruct l1.
    - assert (Q : find f (sort_by le (filter q (a :: l))) = if q a then if f a then match find f (sort_by le (filter q l)) with
        Some y => if le a y then Some a else Some y | None => Some a end else find f (sort_by le (filter q l)) else find f (sort_by le (filter q l))).
      { cbn [filter]. destruct (q a); [|reflexivity]. cbn [sort_by fold_right]. apply find_insert, sort_by_sorted. }
      rewrite Q. clear Q. split.
      + intros H. destruct (q a) eqn:Qa; [destruct (f a) eqn:Fa|].
        * destruct (find f (sort_by le (filter q l))) as [y|] eqn:Ey.
          -- destruct (le a y) eqn:E; injection H as <-.
             ++ exists [], l. repeat split; auto; [intros y0 []|]. destruct (proj1 (IH y) eq_refl) as (m1 & m2 & -> & Qy & Fy & H1 & H2).
                intros z Hz Qz Fz. apply in_app_or in Hz as [Hz|[<-|Hz]]; auto.
                ** specialize (H1 z Hz Qz Fz). apply le_total in H1. eapply le_trans; eauto.
                ** eapply le_trans; [exact E|auto].
             ++ destruct (proj1 (IH y) eq_refl) as (m1 & m2 & -> & Qy & Fy & H1 & H2). exists (a :: m1), m2. repeat split; auto.
                intros z [<-|Hz] Qz Fz; auto.
          -- injection H as <-. exists [], l. repeat split; auto; [intros y []|]. intros y Hy Qy Fy. exfalso.
             assert (X := find_none _ _ Ey y). rewrite X in Fy; [discriminate|].
             apply (Permutation_in _ (Permutation_sym (sort_by_perm _))). apply filter_In; auto.
        * apply IH in H as (m1 & m2 & -> & Qy & Fy & H1 & H2). exists (a :: m1), m2. repeat split; auto. intros z [<-|Hz] Qz Fz; [congruence|auto].
        * apply IH in H as (m1 & m2 & -> & Qy & Fy & H1 & H2). exists (a :: m1), m2. repeat split; auto. intros z [<-|Hz] Qz Fz; [congruence|auto].
      + intros (l1 & l2 & E & Qx & Fx & H1 & H2). destruct l1 as [|b l1]; cbn [app] in E; injection E as <- E.
        * rewrite Qx, Fx. destruct (find f (sort_by le (filter q l))) as [y|] eqn:Ey; [|reflexivity].
          apply find_some in Ey as [Hy Fy]. apply (Permutation_in _ (sort_by_perm _)) in Hy. apply filter_In in Hy as [Hy Qy].
          rewrite <- E in H2. now rewrite (H2 y Hy Qy Fy).
        * assert (X : find f (sort_by le (filter q l)) = Some x).
          { apply IH. exists l1, l2. repeat split; auto. intros y Hy. apply H1. now right. }
          rewrite X. destruct (q a) eqn:Qa; [|reflexivity]. destruct (f a) eqn:Fa; [|reflexivity]. now rewrite (H1 a (or_introl eq_refl) Qa Fa).
  Qed.
End Sort.
Lemma prio_ge_total x y : prio_ge x y = false -> prio_ge y x = true.
Proof. unfold prio_ge. lia. Qed.
Lemma prio_ge_trans x y z : prio_ge x y = true -> prio_ge y z = true -> prio_ge x z = true.
Proof. unfold prio_ge. lia. Qed.

(** ** Association lists keyed by edges *)
Lemma edge_eqb_spec a b : reflect (a = b) (edge_eqb a b).
Proof.
  unfold edge_eqb. destruct a as [a1 a2], b as [b1 b2]. cbn [fst snd].
  destruct (Nat.eqb_spec a1 b1), (Nat.eqb_spec a2 b2); cbn; constructor; congruence.
Qed.
Lemma edge_eqb_refl a : edge_eqb a a = true.
Proof. destruct (edge_eqb_spec a a); congruence. Qed.
Section Dict.
  Context {V : Type}.
  Implicit Types d : list (edge * V).
  Lemma eget_set d k v k' : eget (eset d k v) k' = if edge_eqb k k' then Some v else eget d k'.
  Proof.
    induction d as [|[a x] d IH]; cbn [eset eget]; [reflexivity|].
    destruct (edge_eqb_spec a k) as [->|Na]; cbn [eget].
    - destruct (edge_eqb_spec k k'); reflexivity.
    - destruct (edge_eqb_spec a k') as [->|]; [|exact IH]. destruct (edge_eqb_spec k k'); [congruence|reflexivity].
  Qed.
  Lemma eset_keys d k v x : In x (map fst (eset d k v)) <-> x = k \/ In x (map fst d).
  Proof.
    induction d as [|[a y] d IH]; cbn [eset map In fst]; [intuition auto|].
    destruct (edge_eqb_spec a k) as [->|Na]; cbn [map In fst]; [intuition auto|]. rewrite IH. intuition auto.
  Qed.
  Lemma eset_nodup d k v : NoDup (map fst d) -> NoDup (map fst (eset d k v)).
  Proof.
    induction d as [|[a y] d IH]; cbn [eset map fst]; intros H; [repeat constructor; auto|].
    inversion H as [|? ? Ha Hd]; subst. destruct (edge_eqb_spec a k) as [->|Na]; cbn [map fst]; constructor; auto.
    rewrite eset_keys. intros [->|X]; auto.
  Qed.
  Lemma eget_in d k v : NoDup (map fst d) -> (In (k, v) d <-> eget d k = Some v).
  Proof.
    induction d as [|[a y] d IH]; cbn [eget map fst In]; intros H; [intuition discriminate|].
    inversion H as [|? ? Ha Hd]; subst. destruct (edge_eqb_spec a k) as [->|Na].
    - split; [intros [[= <-]|X]|intros [= <-]; auto]; auto. elim Ha. apply (in_map fst) in X. exact X.
    - rewrite <- (IH Hd). split; [intros [[= <- _]|X]|]; auto. congruence.
  Qed.
  Lemma eget_none d k : eget d k = None <-> ~ In k (map fst d).
  Proof.
    induction d as [|[a y] d IH]; cbn [eget map fst In]; [intuition auto|].
    destruct (edge_eqb_spec a k) as [->|Na]; [split; [discriminate|intros X; elim X; auto]|]. rewrite IH. intuition auto.
  Qed.
  Lemma edel_keys d k x : In x (map fst (edel d k)) -> In x (map fst d).
  Proof.
    induction d as [|[a y] d IH]; cbn [edel map fst In]; [auto|].
    destruct (edge_eqb_spec a k) as [->|Na]; cbn [map fst In]; [auto|]. intros [->|X]; auto.
  Qed.
  Lemma edel_nodup d k : NoDup (map fst d) -> NoDup (map fst (edel d k)).
  Proof.
    induction d as [|[a y] d IH]; cbn [edel map fst]; intros H; [constructor|].
    inversion H as [|? ? Ha Hd]; subst. destruct (edge_eqb_spec a k) as [->|Na]; cbn [map fst]; [auto|].
    constructor; auto. intros X. apply Ha. eapply edel_keys; eauto.
  Qed.
  Lemma eget_del d k k' : NoDup (map fst d) -> eget (edel d k) k' = if edge_eqb k k' then None else eget d k'.
  Proof.
    induction d as [|[a y] d IH]; cbn [edel eget map fst]; intros H; [now destruct edge_eqb|].
    inversion H as [|? ? Ha Hd]; subst. destruct (edge_eqb_spec a k) as [->|Na]; cbn [eget].
    - destruct (edge_eqb_spec k k') as [E|]; [|reflexivity]. rewrite <- E. now apply eget_none.
    - rewrite (IH Hd). destruct (edge_eqb_spec a k') as [E|]; [|reflexivity]. destruct (edge_eqb_spec k k'); [congruence|reflexivity].
  Qed.
End Dict.
Lemma eadd_in s k x : In x (eadd s k) <-> x = k \/ In x s.
Proof.
  unfold eadd. destruct (existsb (fun x0 => edge_eqb x0 k) s) eqn:E.
  - split; [auto|]. intros [->|H]; [|auto]. apply existsb_exists in E as (y & Hy & E). destruct (edge_eqb_spec y k); congruence.
  - rewrite in_app_iff. cbn. intuition auto.
Qed.
Lemma eadd_nodup s k : NoDup s -> NoDup (eadd s k).
Proof.
  intros H. unfold eadd. destruct (existsb (fun x0 => edge_eqb x0 k) s) eqn:E; [auto|].
  apply (Permutation_NoDup (Permutation_cons_append s k)). constructor; auto. intros X.
  assert (existsb (fun x0 => edge_eqb x0 k) s = true); [|congruence]. apply existsb_exists. exists k. split; [auto|apply edge_eqb_refl].
Qed.
Lemma pget_put d k s k' : pget (pput d k s) k' = if Nat.eqb k k' then s else pget d k'.
Proof.
  induction d as [|[a x] d IH]; cbn [pput pget]; [reflexivity|].
  destruct (Nat.eqb_spec a k) as [->|Na]; cbn [pget].
  - destruct (Nat.eqb_spec k k'); reflexivity.
  - destruct (Nat.eqb_spec a k') as [->|]; [|exact IH]. destruct (Nat.eqb_spec k k'); [congruence|reflexivity].
Qed.
Lemma set_add_in s x y : In y (set_add s x) <-> y = x \/ In y s.
Proof.
  unfold set_add. destruct (existsb (Nat.eqb x) s) eqn:E.
  - split; [auto|]. intros [->|H]; [|auto]. apply existsb_exists in E as (z & Hz & E). apply Nat.eqb_eq in E. congruence.
  - rewrite in_app_iff. cbn. intuition auto.
Qed.
Lemma padd_in d k c k' c' : In c' (pget (padd d k c) k') <-> (k' = k /\ c' = c) \/ In c' (pget d k').
Proof.
  unfold padd. rewrite pget_put. destruct (Nat.eqb_spec k k') as [<-|N]; [rewrite set_add_in; intuition auto|]. intuition congruence.
Qed.

Lemma NoDup_map_eq {X Y} (g : X -> Y) l : NoDup (map g l) -> forall a b, In a l -> In b l -> g a = g b -> a = b.
Proof.
  induction l as [|x l IH]; cbn [map In]; intros H a b Ha Hb E; [destruct Ha|]. inversion H as [|? ? Hx Hl]; subst.
  destruct Ha as [->|Ha], Hb as [->|Hb]; auto.
  - elim Hx. rewrite E. now apply in_map.
  - elim Hx. rewrite <- E. now apply in_map.
Qed.

(** ** Nodes *)
Section Nodes.
  Context (SHIFT one : Z) (Hs : 0 < SHIFT) (Hs2 : SHIFT mod 2 = 0) (one_nz : one <> 0).

  Definition node_ok (n : node) : Prop := mask one (nbdd n) /\ forall p, on (nbdd n) p <-> rule_accepts (nrule n) p.
  Lemma wc_one_ok wc : wc_ok wc -> mask one (wc_one SHIFT one wc) /\ forall p, on (wc_one SHIFT one wc) p <-> accepts wc p.
  Proof.
    intros W. unfold wc_one. destruct (Z.eqb_spec wc 0) as [E|N].
    - exfalso. subst. destruct W as [_ W]. assert (P := NB_pos). destruct (W 0) as [X|X]; [lia| |]; now rewrite Z.testbit_0_l in X.
    - destruct (cudd_wc_ok SHIFT wc one Hs Hs2 W one_nz) as [A B]. assert (Dec : forall p, {accepts wc p} + {~ accepts wc p}).
      { intros p. destruct (acceptsb wc p) eqn:E; [left|right]; rewrite <- acceptsb_spec, E; [reflexivity|discriminate]. }
      split; [split; [exact A|]|]; intros p; destruct (B p) as [B1 B2]; destruct (Dec p) as [D|D].
      + right. auto. + left. auto.
      + split; [auto|]. intros _. unfold on. rewrite B1; auto.
      + split; [|tauto]. unfold on. rewrite B2; auto. intros X. now elim X.
  Qed.
  Lemma attach_all_ok r objs : (forall x, In x objs -> match_ok r (rmatch (rcore (snd x)))) ->
    exists ns, attach_all SHIFT one objs = Ok ns /\ map (fun n => (nid n, nrule n)) ns = objs /\ Forall node_ok ns.
  Proof.
    induction objs as [|[i R] objs IH]; intros H; cbn [attach_all].
    - exists []. repeat split; constructor.
    - destruct IH as (ns & E & M & F); [intros x Hx; apply H; now right|].
      destruct (match_wc_ok r (rmatch (rcore R)) (H (i, R) (or_introl eq_refl))) as (w & Ew & Ww & _ & Aw).
      unfold attach_one. cbn [fst snd]. unfold rule_wc. rewrite Ew. cbn [rbind]. rewrite E. cbn [rbind].
      eexists. split; [reflexivity|]. split; [cbn [map nid nrule]; now rewrite M|]. constructor; [|exact F].
      destruct (wc_one_ok w Ww) as [A B]. split; [exact A|]. intros p. cbn [nbdd nrule]. rewrite B. apply Aw.
  Qed.

  (** the first node of a list that a packet hits *)
  Definition onb (p : packet) (n : node) : bool := negb (adenote (nbdd n) p =? 0).
  Lemma onb_on p n : onb p n = true <-> on (nbdd n) p.
  Proof. unfold onb, on. destruct (Z.eqb_spec (adenote (nbdd n) p) 0); cbn; intuition congruence. Qed.
  Definition hit (P : list node) (p : packet) : option node := find (onb p) P.

  Lemma parents_bdd_sound P : forall packets, mask one packets -> Forall node_ok P ->
    forall j b, In (j, b) (parents_bdd packets P) -> mask one b /\ (exists p, on b p) /\
    exists l1 n l2, P = l1 ++ n :: l2 /\ nid n = j /\
      forall p, on b p <-> on packets p /\ on (nbdd n) p /\ forall x, In x l1 -> ~ on (nbdd x) p.
  Proof.
    induction P as [|R t IH]; intros packets Mp F j b H; cbn [parents_bdd] in H; [destruct H|].
    inversion F as [|? ? OR Ft]; subst. destruct OR as [MR AR].
    destruct (mask_inter one one_nz packets (nbdd R) Mp MR) as [Mi Oi]. destruct (mask_sub one one_nz packets (nbdd R) Mp MR) as [Ms Os].
    destruct (cudd_bool (binter packets (nbdd R))) eqn:E.
    - destruct H as [[= <- <-]|H].
      + split; [exact Mi|]. split; [apply (cudd_bool_on _ (proj1 Mi)); exact E|].
        exists [], R, t. split; [reflexivity|]. split; [reflexivity|]. intros p. rewrite Oi. cbn [In]. intuition auto.
      + destruct (cudd_bool (bsub packets (nbdd R))); [|destruct H].
        destruct (IH _ Ms Ft j b H) as (Mb & Ne & l1 & n & l2 & -> & En & B). split; [exact Mb|]. split; [exact Ne|].
        exists (R :: l1), n, l2. split; [reflexivity|]. split; [exact En|]. intros p. rewrite B, Os. cbn [In]. split.
        * intros ((A1 & A2) & A3 & A4). repeat split; auto. intros x [<-|Hx]; auto.
        * intros (A1 & A2 & A3). repeat split; auto.
    - destruct (IH _ Mp Ft j b H) as (Mb & Ne & l1 & n & l2 & -> & En & B). split; [exact Mb|]. split; [exact Ne|].
      exists (R :: l1), n, l2. split; [reflexivity|]. split; [exact En|]. intros p. rewrite B. cbn [In]. split.
      + intros (A1 & A2 & A3). repeat split; auto. intros x [<-|Hx]; [|auto]. intros X.
        apply (cudd_bool_off _ (proj1 Mi)) with (p := p) in E. apply E. now apply Oi.
      + intros (A1 & A2 & A3). repeat split; auto.
  Qed.
  Lemma parents_bdd_complete P : forall packets p, mask one packets -> Forall node_ok P -> on packets p ->
    forall n, hit P p = Some n -> exists b, In (nid n, b) (parents_bdd packets P) /\ on b p.
  Proof.
    induction P as [|R t IH]; intros packets p Mp F Hp n H; cbn [parents_bdd]; [discriminate|].
    inversion F as [|? ? OR Ft]; subst. destruct OR as [MR AR].
    destruct (mask_inter one one_nz packets (nbdd R) Mp MR) as [Mi Oi]. destruct (mask_sub one one_nz packets (nbdd R) Mp MR) as [Ms Os].
    unfold hit in H. cbn [find] in H. destruct (onb p R) eqn:E.
    - injection H as <-. apply onb_on in E.
      assert (C : cudd_bool (binter packets (nbdd R)) = true) by (apply (cudd_bool_on _ (proj1 Mi)); exists p; now apply Oi).
      rewrite C. eexists. split; [left; reflexivity|]. now apply Oi.
    - assert (NR : ~ on (nbdd R) p) by (rewrite <- onb_on; congruence).
      destruct (cudd_bool (binter packets (nbdd R))) eqn:C; [|now apply IH].
      assert (S0 : on (bsub packets (nbdd R)) p) by (now apply Os).
      assert (C2 : cudd_bool (bsub packets (nbdd R)) = true) by (apply (cudd_bool_on _ (proj1 Ms)); eauto). rewrite C2.
      destruct (IH _ p Ms Ft S0 n H) as (b & Hb & Hon). exists b. split; [now right|exact Hon].
  Qed.
  Lemma parents_bdd_ids P : forall packets j, In j (map fst (parents_bdd packets P)) -> In j (map nid P).
  Proof.
    induction P as [|R t IH]; intros packets j H; cbn [parents_bdd] in H; [destruct H|]. cbn [map In].
    destruct (cudd_bool (binter packets (nbdd R))); [destruct H as [<-|H]; [now left|]|]; right; [|eauto].
    destruct (cudd_bool (bsub packets (nbdd R))); [eauto|destruct H].
  Qed.
  Lemma parents_bdd_nodup P : forall packets, NoDup (map nid P) -> NoDup (map fst (parents_bdd packets P)).
  Proof.
    induction P as [|R t IH]; intros packets H; cbn [parents_bdd]; [constructor|].
    inversion H as [|? ? HR Ht]; subst.
    destruct (cudd_bool (binter packets (nbdd R))); [|auto]. cbn [map fst].
    destruct (cudd_bool (bsub packets (nbdd R))); constructor; auto; [|constructor].
    intros X. apply HR. eapply parents_bdd_ids; eauto.
  Qed.
  (** both at once: the entry for a parent is the set of packets that hit it first *)
  Lemma parents_bdd_spec P packets : mask one packets -> Forall node_ok P -> NoDup (map nid P) ->
    (forall j b, In (j, b) (parents_bdd packets P) -> mask one b /\ (exists p, on b p) /\
       forall p, on b p <-> on packets p /\ exists n, nid n = j /\ hit P p = Some n) /\
    (forall p n, on packets p -> hit P p = Some n -> exists b, In (nid n, b) (parents_bdd packets P)).
  Proof.
    intros Mp F ND. split.
    - intros j b H. destruct (parents_bdd_sound P packets Mp F j b H) as (Mb & Ne & l1 & n & l2 & E & En & B).
      split; [exact Mb|]. split; [exact Ne|]. intros p. rewrite B. split.
      + intros (A1 & A2 & A3). split; [auto|]. exists n. split; [auto|]. unfold hit. rewrite E.
        clear - A2 A3. induction l1 as [|x l1 IH]; cbn [app find].
        * apply onb_on in A2. now rewrite A2.
        * destruct (onb p x) eqn:X; [apply onb_on in X; elim (A3 x); [now left|auto]|]. apply IH. intros y Hy. apply A3. now right.
      + intros (A1 & m & Em & Hm). split; [auto|]. assert (m = n).
        { apply find_some in Hm as [Hm _]. apply (NoDup_map_eq nid P ND m n); auto; [rewrite E; apply in_elt|congruence]. }
        subst m. split; [apply find_some in Hm as [_ X]; now apply onb_on|].
        intros x Hx X. rewrite E in Hm, ND. clear - Hm ND Hx X.
        revert ND Hm. induction l1 as [|y l1 IH]; [destruct Hx|]. intros ND Hm. unfold hit in Hm. cbn [app find] in Hm. cbn [app map] in ND.
        inversion ND as [|? ? Hy ND']; subst. destruct (onb p y) eqn:Y.
        * injection Hm as ->. apply Hy. rewrite map_app. apply in_or_app. right. now left.
        * destruct Hx as [->|Hx]; [apply onb_on in X; congruence|]. now apply IH.
    - intros p n Hp Hn. destruct (parents_bdd_complete P packets p Mp F Hp n Hn) as (b & Hb & _). eauto.
  Qed.
End Nodes.
