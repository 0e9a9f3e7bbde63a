(** select_compressed_ruleset where the dependencies of each rule form a chain: it finds a
    representative for every group without moving those it has chosen. *)
From Coq Require Import Lia Permutation Sorted.
From Coq Require Import ZifyBool ZifyNat ZifyN.
From Verif Require Import Compress SpecCompress DepsProofs DepsTable TreeProofs GroupProofs SelectProofs.
Local Open Scope string_scope.
Local Open Scope list_scope.
Local Open Scope nat_scope.
Local Opaque NB WC_FULLWC layout oxm_fields registry_init.

Section Chain.
  Context (rules : list rule) (t : tree).
  Context (U : list nat) (d0 : gdict) (m0 : rdict).
  Context (closed : forall x y, In x U -> In y (tparents t x ++ tchildren t x) -> In y U).
  Context (P0 : part_ok U d0 m0) (St0 : stable t d0 m0) (Mi : forall a b, In a (tparents t b) <-> In b (tchildren t a)).
  Context (Sk : forall x y, In x U -> In y U -> m0 x = m0 y -> skey rules x = skey rules y).
  Context (Mono : True -> forall a b, In b (tchildren t a) -> skey_le rules b a = false).
  Context (Chain : forall x y z, In y (tchildren t x) -> In z (tchildren t x) -> y = z \/ In z (tchildren t y) \/ In y (tchildren t z)).
  Notation selok := (sel_ok U m0).
  Notation inv := (inv rules t U m0 True).

  Definition full (s : sel) : Prop := forall a b, In a (sassigned s) -> In b (tchildren t a) -> In b (sassigned s).
  Lemma child_U x y : In x U -> In y (tchildren t x) -> In y U.
  Proof. intros Hx Hy. eapply closed; [exact Hx|]. apply in_or_app. now right. Qed.
  Lemma parent_U x y : In x U -> In y (tparents t x) -> In y U.
  Proof. intros Hx Hy. eapply closed; [exact Hx|]. apply in_or_app. now left. Qed.
  Lemma same_not_child x y : In x U -> In y U -> m0 x = m0 y -> ~ In y (tchildren t x).
  Proof. intros Hx Hy E H. assert (X := Mono I x y H). rewrite (skey_cmp_same rules y x x x) in X; [unfold skey_le in X; lia| |reflexivity]. apply Sk; auto. Qed.
  Lemma first_of (l : list nat) : l <> [] -> exists y, In y l /\ forall z, In z l -> skey_le rules y z = true.
  Proof.
    induction l as [|x l IH]; [congruence|]. intros _. destruct l as [|w l]; [exists x; split; [now left|]; intros z [<-|[]]; unfold skey_le; lia|].
    destruct IH as (y & Hy & My); [discriminate|]. destruct (skey_le rules x y) eqn:E.
    - exists x. split; [now left|]. intros z [<-|Hz]; [unfold skey_le; lia|]. specialize (My z Hz). unfold skey_le in *. lia.
    - exists y. split; [now right|]. intros z [<-|Hz]; [unfold skey_le in *; lia|auto].
  Qed.
  Lemma option_exists s g todo l : inv s (g :: todo) -> full s -> In (g, l) (sgroups s) -> exists o, In o l /\ forall y, In y (tchildren t o) -> In y (sassigned s).
  Proof.
    intros Hi Hf Hl. assert (Hs := iv_sel _ _ _ _ _ _ _ Hi). destruct (iv_todo _ _ _ _ _ _ _ Hi g (or_introl eq_refl)) as (Ug & Rg & Ng).
    assert (InL : forall x, In x U -> m0 x = m0 g -> In x l).
    { intros x Hx E. apply (part_cls _ _ _ _ _ _ (so_part _ _ _ Hs) Hl Hx). rewrite <- Rg. now apply (so_cls _ _ _ Hs). }
    destruct (tchildren t g) as [|c0 cs] eqn:Ec; [exists g; split; [auto|]; rewrite Ec; intros y []|].
    destruct (first_of (tchildren t g)) as (y & Hy & My); [rewrite Ec; discriminate|]. clear c0 cs Ec. assert (Uy := child_U g y Ug Hy).
    assert (Ty : taken m0 s y).
    { destruct (iv_all _ _ _ _ _ _ _ Hi y Uy) as [H|(h & Hh & Eh)]; [exact H|]. exfalso. destruct (iv_todo _ _ _ _ _ _ _ Hi h Hh) as (Uh & _ & _). assert (X := Mono I g y Hy).
      rewrite (skey_cmp_same rules y h g g) in X; [|symmetry; apply Sk; auto|reflexivity]. assert (So := iv_sorted _ _ _ _ _ _ _ Hi). inversion So as [|? ? S1 F1]; subst. rewrite Forall_forall in F1.
      destruct Hh as [<-|Hh]; [unfold skey_le in X; lia|]. rewrite (F1 h Hh) in X. discriminate X. }
    destruct Ty as (p & Hp & Ep). destruct (so_rep _ _ _ Hs p Hp) as [Up _].
    destruct (stable_parent t U d0 m0 closed P0 St0 y p g Uy Up (eq_sym Ep) (proj2 (Mi _ _) Hy)) as (x' & Hx' & Ex'). assert (Ux' := parent_U p x' Up Hx'). apply Mi in Hx'.
    exists x'. split; [now apply InL|]. intros z Hz. destruct (Chain x' p z Hx' Hz) as [<-|[H|H]]; [exact Hp|eapply Hf; eauto|]. exfalso.
    destruct (stable_child t U d0 m0 closed P0 St0 x' g z Ux' Ug Ex' Hz) as (z0 & Hz0 & Ez0). assert (X := My z0 Hz0). assert (Y := Mono I z p H). assert (Uz := child_U x' z Ux' Hz). assert (Uz0 := child_U g z0 Ug Hz0).
    rewrite (skey_cmp_same rules y p z0 z) in X; [congruence| |]; apply Sk; auto.
  Qed.
  Lemma check_full s o : selok s -> In o U -> (forall y, In y (tchildren t o) -> In y (sassigned s)) -> exists e ov, check_option t s o = Ok (e, ov) /\ seteq e ov = true.
  Proof.
    intros Hs Ho Ha. unfold check_option. destruct (rgets_ok (srep s) (to_set (tchildren t o))) as (gs & -> & Hg).
    - intros k Hk. rewrite to_set_in in Hk. exists k. apply (so_rep _ _ _ Hs k), Ha, Hk.
    - cbn [rbind]. eexists _, _. split; [reflexivity|]. apply seteq_in. intros x. rewrite inter_in, !to_set_in, Hg. split.
      + intros (k & Hk & E). rewrite to_set_in in Hk. assert (A := Ha k Hk). assert (R := proj2 (so_rep _ _ _ Hs k A)). assert (x = k) by congruence. subst. auto.
      + intros [Hx A]. exists x. rewrite to_set_in. split; [exact Hx|]. apply (so_rep _ _ _ Hs x A).
  Qed.
  Lemma first_finds s : selok s -> forall l, (forall x, In x l -> In x U) -> (exists o, In o l /\ forall y, In y (tchildren t o) -> In y (sassigned s)) -> exists o, first_option t s l = Ok (Some o).
  Proof.
    intros Hs. induction l as [|x l IH]; intros HU (o & Ho & A); [destruct Ho|]. cbn [first_option]. destruct (check_ok t U m0 closed s x Hs (HU x (or_introl eq_refl))) as (e & ov & E & _).
    rewrite E. cbn [rbind fst snd]. destruct (seteq e ov) eqn:Es; [eauto|]. apply IH; [intros; apply HU; now right|]. destruct Ho as [<-|Ho]; [|eauto]. exfalso.
    destruct (check_full s x Hs (HU x (or_introl eq_refl)) A) as (e1 & ov1 & E1 & E2). rewrite E in E1. injection E1 as <- <-. congruence.
  Qed.
  Lemma assign_total s g todo : inv s (g :: todo) -> full s -> exists s', (forall ord, assign_group ord t s g = Ok s') /\ inv s' todo /\ full s'.
  Proof.
    intros Hi Hf. destruct (iv_todo _ _ _ _ _ _ _ Hi g (or_introl eq_refl)) as (Ug & Rg & Ng). assert (Hs := iv_sel _ _ _ _ _ _ _ Hi).
    destruct (part_rep _ _ _ _ _ (so_part _ _ _ Hs) Ug Rg) as (_ & _ & l & Hl & _).
    assert (HU : forall x, In x l -> In x U) by (intros x Hx; eapply part_in; [apply (so_part _ _ _ Hs)|exact Hl|exact Hx]).
    destruct (first_finds s Hs l HU (option_exists s g todo l Hi Hf Hl)) as (o & Eo). destruct (first_option_ok t U m0 closed s Hs l o HU Eo) as [Ho K]. assert (Uo := HU o Ho).
    destruct (switch_ok U m0 s o Hs Uo) as (s2 & E2 & Hs2 & Q1 & Q2 & As).
    assert (E : forall ord, assign_group ord t s g = Ok (mkSel (sgroups s2) (srep s2) (set_add (sassigned s2) o))).
    { intros ord. unfold assign_group. rewrite (part_get _ _ _ _ _ (so_part _ _ _ Hs) Hl). cbn [rbind]. rewrite Eo. cbn [rbind]. rewrite E2. reflexivity. }
    eexists. split; [exact E|]. split; [eapply (assign_ok (fun l => l) (fun l => Permutation_refl l)); eauto|].
    assert (Mo : m0 o = m0 g). { apply (so_cls _ _ _ Hs); auto. rewrite Rg. apply (part_cls _ _ _ _ _ _ (so_part _ _ _ Hs) Hl Uo). exact Ho. }
    assert (No : ~ taken m0 s o). { intros (a & H1 & H2). apply Ng. exists a. split; [exact H1|congruence]. }
    assert (As' : forall a, In a (sassigned s2) <-> In a (sassigned s)).
    { intros a. rewrite As. split; [tauto|]. intros H. left. split; [exact H|]. intros X. apply No. exists a. auto. }
    intros a b Ha Hb. cbn [sassigned] in *. rewrite set_add_in, As' in *. left. destruct Ha as [Ha| ->]; [eapply Hf; eauto|].
    assert (Ub := child_U o b Uo Hb). destruct (rep_ok U m0 s b Hs Ub) as (h & Eh). destruct (K b h Hb Eh) as [H1 H2]. destruct (so_rep _ _ _ Hs h H2) as [Uh Rh].
    assert (Eb : m0 b = m0 h) by (apply (so_cls _ _ _ Hs); auto; congruence). destruct (Chain o b h Hb H1) as [->|[H|H]]; [exact H2| |]; exfalso.
    - exact (same_not_child b h Ub Uh Eb H).
    - exact (same_not_child h b Uh Ub (eq_sym Eb) H).
  Qed.
  Lemma assign_all_total : forall todo s, inv s todo -> full s -> exists s', forall ord, rfold (assign_group ord t) todo s = Ok s'.
  Proof.
    induction todo as [|g todo IH]; intros s Hi Hf; cbn [rfold]; [eauto|]. destruct (assign_total s g todo Hi Hf) as (s1 & E & Hi1 & Hf1). destruct (IH s1 Hi1 Hf1) as (s' & E'). exists s'. intros ord. rewrite E. cbn [rbind]. apply E'.
  Qed.
  Lemma select_total : d0 <> [] -> exists d m, forall ord, exists res, select_compressed ord rules t d0 m0 = Ok (res, d, m).
  Proof.
    intros N. unfold select_compressed. destruct (rev (sort_ids rules (map fst d0))) as [|g todo] eqn:Er.
    { exfalso. apply N. assert (P : Permutation (rev (sort_ids rules (map fst d0))) (map fst d0)) by (rewrite <- Permutation_rev; apply sort_by_perm). rewrite Er in P. apply Permutation_nil in P. destruct d0; [reflexivity|discriminate P]. }
    assert (P : Permutation (g :: todo) (map fst d0)) by (rewrite <- Er, <- Permutation_rev; apply sort_by_perm).
    assert (Rep : forall h, In h (g :: todo) -> In h U /\ m0 h = Some h).
    { intros h Hh. apply (Permutation_in _ P) in Hh. apply in_map_iff in Hh as ([h' l] & E & Hl). cbn [fst] in E. subst h'. assert (X := part_head _ _ _ _ _ P0 Hl).
      split; [eapply part_in; eauto|]. eapply (proj2 (proj2 (proj2 P0))); eauto. }
    assert (ND : NoDup (g :: todo)) by (eapply Permutation_NoDup; [apply Permutation_sym; exact P|eapply part_keys_nodup; exact P0]).
    assert (So : StronglySorted (fun a b => skey_le rules b a = true) (g :: todo)) by (rewrite <- Er; apply sorted_rev; unfold sort_ids; apply sort_by_sorted; unfold skey_le; intros; lia).
    destruct (Rep g (or_introl eq_refl)) as [Ug Eg].
    assert (Low : forall x, In x U -> skey_le rules x g = true).
    { intros x Hx. inversion So as [|? ? S1 F1]; subst. rewrite Forall_forall in F1. destruct (part_find _ _ _ _ P0 Hx) as (h & l & Hl & _ & E).
      assert (Hh : In h (g :: todo)) by (apply (Permutation_in _ (Permutation_sym P)); apply in_map_iff; exists (h, l); auto). destruct (Rep h Hh) as [Uh Eh].
      rewrite (skey_cmp_same rules x h g g); [|apply Sk; auto; congruence|reflexivity]. destruct Hh as [<-|Hh]; [unfold skey_le; lia|exact (F1 h Hh)]. }
    assert (Hi : inv (mkSel d0 m0 [g]) todo).
    { inversion ND as [|? ? N1 N2]; subst. inversion So as [|? ? S1 F1]; subst. rewrite Forall_forall in F1.
      split; cbn [sgroups srep sassigned].
      - split; cbn [sgroups srep sassigned]; [exact P0|reflexivity|repeat constructor; intros []|]. intros a [<-|[]]. auto.
      - intros h Hh. destruct (Rep h (or_intror Hh)) as [Uh Eh]. split; [exact Uh|]. split; [exact Eh|]. intros (a & [<-|[]] & E). cbn [sassigned] in *. apply N1. assert (g = h) by congruence. now subst.
      - exact N2.
      - intros x Hx. destruct (part_find _ _ _ _ P0 Hx) as (h & l & Hl & _ & E). assert (Hh : In h (g :: todo)) by (apply (Permutation_in _ (Permutation_sym P)); apply in_map_iff; exists (h, l); auto).
        destruct (Rep h Hh) as [Uh Eh]. destruct Hh as [<-|Hh]; [left; exists g; split; [now left|congruence]|right; exists h; split; [exact Hh|congruence]].
      - exact S1.
      - intros x h Hx (a & [<-|[]] & E) Hh. rewrite <- (F1 h Hh). apply skey_cmp_same; [reflexivity|]. apply Sk; auto.
      - intros Hmo a b x y [<-|[]] [<-|[]] Hx Hy Ex Ey Hxy. exfalso. apply (same_not_child x y Hx Hy); [congruence|exact Hxy]. }
    assert (Hf : full (mkSel d0 m0 [g])).
    { intros a b [<-|[]] Hb. exfalso. assert (X := Mono I g b Hb). rewrite (Low b (child_U g b Ug Hb)) in X. discriminate X. }
    destruct (assign_all_total todo _ Hi Hf) as (s & E). exists (sgroups s), (srep s). intros ord. rewrite E. cbn [rbind]. eauto.
  Qed.
End Chain.
