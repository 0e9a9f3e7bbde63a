(** Proofs about normalise_set_fields (match_redundancy=True). *)
From Verif Require Export NormaliseProofs MatchWcProofs RedundantProofs.
From Coq Require Import Lia Permutation.
Local Open Scope list_scope.
Local Open Scope Z_scope.
Local Opaque NB WC_FULLWC.

(** *** Sublists and combinations *)
Lemma sublist_length {A} (a b : list A) : sublist a b -> (List.length a <= List.length b)%nat.
Proof. induction 1; cbn; lia. Qed.
Lemma sublist_full {A} (a b : list A) : sublist a b -> List.length a = List.length b -> a = b.
Proof.
  induction 1 as [l|x a b H IH|x a b H IH]; cbn; intros E; [destruct l; [reflexivity|discriminate]| |f_equal; apply IH; lia].
  apply sublist_length in H. lia.
Qed.
Lemma sublist_filter {A} (f : A -> bool) (l : list A) : sublist (filter f l) l.
Proof. induction l as [|x l IH]; cbn; [constructor|]. destruct (f x); [now apply sub_keep|now apply sub_skip]. Qed.
Lemma sublist_filter_all {A} (f : A -> bool) (a b : list A) : sublist a b -> forallb f a = true -> sublist a (filter f b).
Proof.
  induction 1 as [l|x a b H IH|x a b H IH]; cbn; intros E; [constructor| |].
  - destruct (f x); [apply sub_skip|]; auto.
  - apply andb_true_iff in E as [E1 E2]. rewrite E1. apply sub_keep; auto.
Qed.
Lemma combinations_spec {A} (l : list A) : forall k c, In c (combinations l k) <-> sublist c l /\ List.length c = k.
Proof.
  induction l as [|x l IH]; intros [|k] c; cbn [combinations].
  - split; [intros [<-|[]]; split; [constructor|reflexivity]|]. intros [H E]. destruct c; [now left|discriminate].
  - split; [intros []|]. intros [H E]. inversion H; subst. discriminate.
  - split; [intros [<-|[]]; split; [constructor|reflexivity]|intros [H E]; destruct c; [now left|discriminate]].
  - rewrite in_app_iff, in_map_iff. split.
    + intros [(c' & <- & H)|H].
      * apply IH in H as [H1 H2]. split; [now apply sub_keep|cbn; lia].
      * apply IH in H as [H1 H2]. split; [now apply sub_skip|auto].
    + intros [H E]. inversion H as [m|y a b H' E1 E2|y a b H' E1 E2]; subst; [discriminate| |].
      * right. apply IH. auto.
      * left. exists a. split; [reflexivity|]. apply IH. cbn in E. split; [auto|lia].
Qed.
Lemma find_app {A} (f : A -> bool) l1 l2 : find f (l1 ++ l2) = match find f l1 with Some x => Some x | None => find f l2 end.
Proof. induction l1 as [|x l IH]; cbn; [reflexivity|]. destruct (f x); auto. Qed.

Section Largest.
  Context {A : Type} (f : A -> bool) (l : list A).
  Notation sat := (filter f l).
  Lemma find_combos k : find (forallb f) (combinations l k) =
    if (List.length sat <? k)%nat then None else find (forallb f) (combinations l k).
  Proof.
    destruct (Nat.ltb_spec (List.length sat) k) as [H|H]; [|reflexivity].
    destruct (find (forallb f) (combinations l k)) as [c|] eqn:E; [|reflexivity]. apply find_some in E as [E1 E2].
    apply combinations_spec in E1 as [E1 E3]. assert (X := sublist_length _ _ (sublist_filter_all f c l E1 E2)). lia.
  Qed.
  Lemma find_sat : find (forallb f) (combinations l (List.length sat)) = Some sat.
  Proof.
    destruct (find (forallb f) (combinations l (List.length sat))) as [c|] eqn:E.
    - apply find_some in E as [E1 E2]. apply combinations_spec in E1 as [E1 E3]. f_equal.
      apply sublist_full; [now apply sublist_filter_all|auto].
    - assert (X : In sat (combinations l (List.length sat))) by (apply combinations_spec; split; [apply sublist_filter|reflexivity]).
      apply (find_none _ _ E) in X. assert (Y : forallb f sat = true); [|congruence]. apply forallb_forall. intros x Hx. apply filter_In in Hx. tauto.
  Qed.
  Lemma find_largest n : (List.length sat <= n)%nat ->
    find (forallb f) (flat_map (combinations l) (rev (seq 1 n))) = match sat with [] => None | _ => Some sat end.
  Proof.
    induction n as [|n IH]; intros H.
    - destruct sat; [reflexivity|cbn in H; lia].
    - rewrite seq_S, rev_app_distr. cbn [rev app flat_map]. rewrite find_app.
      destruct (Nat.eq_dec (List.length sat) (1 + n)) as [E|E].
      + rewrite <- E, find_sat. destruct sat; [discriminate E|reflexivity].
      + rewrite find_combos. destruct (Nat.ltb_spec (List.length sat) (1 + n)); [|cbn in *; lia]. apply IH. cbn in *. lia.
  Qed.
End Largest.

(** *** The entries of one rule *)
Definition holds (fv : string * Z) (p : packet) : Prop := item_accepts (fst fv, (snd fv, None)) p.
(** [holds] as a Boolean: through the wildcard of the one-item match. *)
Definition holdsb (p : packet) (fv : string * Z) : bool :=
  match flow_matches_to_wildcard [(fst fv, (snd fv, None))] with Ok w => acceptsb w p | Err _ => false end.
Lemma holdsb_spec p fv : holdsb p fv = true <-> holds fv p.
Proof.
  unfold holdsb, holds. destruct (wildcard_of_match [(fst fv, (snd fv, None))]) as (w & -> & _ & _ & A & _).
  rewrite acceptsb_spec, A. unfold match_accepts. split; [intros H; apply H; now left|intros H it [<-|[]]; auto].
Qed.
Lemma comb_wc_ok comb : exists w, comb_wc comb = Ok w /\ wc_range w /\ forall p, acceptsb w p = forallb (holdsb p) comb.
Proof.
  unfold comb_wc. destruct (match_wildcard_ok registry_init match_new (match_new_ok _)) as (m' & w0 & E & _ & W & _ & _ & _ & _ & _ & A).
  unfold match_wc. rewrite E. cbn [rbind snd].
  assert (A0 : forall p, acceptsb w0 p = true) by (intros p; apply acceptsb_spec, A; intros it []).
  assert (P : forall comb w, wc_range w -> exists w', rfold (fun sf_wc (fv : string * Z) => do wc <- flow_matches_to_wildcard [(fst fv, (snd fv, None))];
              Ok (wildcard_intersect sf_wc wc)) comb w = Ok w' /\ wc_range w' /\ forall p, acceptsb w' p = acceptsb w p && forallb (holdsb p) comb).
  { clear. induction comb as [|fv comb IH]; intros w R; cbn [rfold].
    - exists w. split; [reflexivity|]. split; [auto|]. intros p. now rewrite andb_true_r.
    - destruct (wildcard_of_match [(fst fv, (snd fv, None))]) as (wf & E & Rf & _ & Af & _). rewrite E. cbn [rbind].
      assert (Ri : wc_range (wildcard_intersect w wf)).
      { destruct (wildcard_intersect_cases w wf) as [[_ ->]|[_ ->]]; [now apply wc_range_land|]. split; [lia|]. apply Z.pow_pos_nonneg; [lia|]. rewrite NB_val. lia. }
      destruct (IH _ Ri) as (w' & E' & R' & A'). exists w'. split; [exact E'|]. split; [auto|]. intros p. rewrite A'. cbn [forallb].
      unfold holdsb at 2. rewrite E. rewrite andb_assoc. f_equal. apply eq_true_iff_eq. rewrite andb_true_iff, !acceptsb_spec. apply wildcard_intersect_accepts. }
  destruct (P comb w0 (proj1 W)) as (w' & E' & R' & A'). exists w'. split; [exact E'|]. split; [auto|]. intros p. now rewrite A', A0.
Qed.
Lemma set_entries_ok wc pp combs : wc_ok wc -> exists es, set_entries wc pp combs = Ok es /\ (forall e, In e es -> entry_ok (fst e)) /\
  forall p, first_entry es p = if acceptsb wc p then option_map (fun c => strip c pp) (find (forallb (holdsb p)) combs) else None.
Proof.
  intros W. induction combs as [|c combs IH]; cbn [set_entries].
  - exists []. split; [reflexivity|]. split; [intros e []|]. intros p. destruct (acceptsb wc p); reflexivity.
  - destruct (comb_wc_ok c) as (w & -> & R & A). destruct IH as (es & -> & H1 & H2). cbn [rbind].
    eexists. split; [reflexivity|].
    assert (Acc : forall p, acceptsb (wildcard_intersect wc w) p = acceptsb wc p && forallb (holdsb p) c).
    { intros p. rewrite <- A. apply eq_true_iff_eq. rewrite andb_true_iff, !acceptsb_spec. apply wildcard_intersect_accepts. }
    destruct (Z.eqb_spec (wildcard_intersect wc w) 0) as [E|E].
    + split; [auto|]. intros p. rewrite H2. cbn [find]. specialize (Acc p). rewrite E, acceptsb_0 in Acc.
      destruct (acceptsb wc p); [|reflexivity]. cbn [andb] in Acc. now rewrite <- Acc.
    + split; [intros e [<-|He]; [right; apply wildcard_intersect_ok; [apply W|auto]|auto]|].
      intros p. unfold first_entry. cbn [find fst]. rewrite Acc. destruct (acceptsb wc p) eqn:Ew; cbn [andb].
      * destruct (forallb (holdsb p) c); [reflexivity|]. specialize (H2 p). unfold first_entry in H2. rewrite H2, Ew. reflexivity.
      * specialize (H2 p). unfold first_entry in H2. now rewrite H2, Ew.
Qed.

Section Eager.
  Context (ord : list (string * Z) -> list (string * Z)).
  (** The set fields of [pp] that do nothing on [p] are removed, from every port. *)
  Definition eager_value (pp : po_value) (p : packet) : po_value := strip (filter (holdsb p) (ord (nodup pair_eq_dec (set_pairs pp)))) pp.
  Lemma strip_nil pp : strip [] pp = pp.
  Proof.
    unfold strip. rewrite <- (map_id pp) at 2. apply map_ext. intros [k l]. cbn [fst snd]. f_equal.
    induction l as [|a l IH]; [reflexivity|]. cbn [filter]. rewrite IH. destruct (snd a); reflexivity.
  Qed.
  Lemma eager_entries reg r pp : match_ok reg (rmatch (rcore r)) -> rule_actions r = Ok pp ->
    exists es, rule_entries (Some ord) r = Ok es /\ es <> [] /\ (forall e, In e es -> entry_ok (fst e)) /\
    forall p, (rule_accepts r p -> first_entry es p = Some (eager_value pp p)) /\ (~ rule_accepts r p -> first_entry es p = None).
  Proof.
    intros H E. destruct (rule_wc_ok reg r H) as (w & Ew & Ww & Aw). cbn [rule_entries]. unfold normalise_set_fields. rewrite E, Ew. cbn [rbind].
    set (fields := ord (nodup pair_eq_dec (set_pairs pp))).
    destruct (set_entries_ok w pp (flat_map (combinations fields) (rev (seq 1 (List.length fields)))) Ww) as (es & -> & H1 & H2). cbn [rbind].
    exists (es ++ [(w, pp)]). split; [reflexivity|]. split; [destruct es; discriminate|]. split.
    { intros e He. apply in_app_iff in He as [He|[<-|[]]]; [auto|now right]. }
    intros p. rewrite first_entry_app, H2. rewrite find_largest by apply sublist_length, sublist_filter. split; intros Ha.
    - apply Aw in Ha. rewrite Ha. unfold eager_value. fold fields. destruct (filter (holdsb p) fields) as [|x l] eqn:Ef; [|reflexivity].
      cbn [option_map orelse]. unfold first_entry. cbn [find fst]. rewrite Ha. now rewrite strip_nil.
    - destruct (acceptsb w p) eqn:Ep; [apply Aw in Ep; contradiction|]. cbn [orelse]. unfold first_entry. cbn [find fst]. now rewrite Ep.
  Qed.
End Eager.

(** *** Any list of rules, either mode *)
Lemma entries_ok mr reg rules : rules_ok reg rules -> forall es, all_entries mr rules = Ok es ->
  (forall e, In e es -> entry_ok (fst e)) /\ (rules <> [] -> es <> []).
Proof.
  intros H es E. unfold all_entries in E.
  assert (P : forall rules acc es, rules_ok reg rules -> rfold (fun es r => do e <- rule_entries mr r; Ok (es ++ e)) rules acc = Ok es ->
    exists es', es = acc ++ es' /\ (forall e, In e es' -> entry_ok (fst e)) /\ (rules <> [] -> es' <> [])).
  2:{ destruct (P rules [] es H E) as (es' & -> & Q). exact Q. }
  clear. induction rules as [|r rules IH]; intros acc es H E; cbn [rfold] in E.
  - injection E as <-. exists []. rewrite app_nil_r. split; [reflexivity|]. split; [intros e []|congruence].
  - assert (Hr : match_ok reg (rmatch (rcore r))) by (apply H; now left). destruct (rule_entries mr r) as [er|e] eqn:Er; [|discriminate E].
    assert (Wr : (forall e, In e er -> entry_ok (fst e)) /\ er <> []).
    { destruct (rule_actions r) as [pp|e] eqn:Ea.
      - destruct mr as [ord|].
        + destruct (eager_entries ord reg r pp Hr Ea) as (es' & E' & N & W & _). rewrite Er in E'. injection E' as <-. auto.
        + destruct (rule_wc_ok reg r Hr) as (w & Ew & Ww & _). unfold rule_entries in Er. rewrite Ea, Ew in Er. cbn in Er. injection Er as <-.
          split; [intros e [<-|[]]; now right|discriminate].
      - destruct mr; unfold rule_entries, normalise_set_fields in Er; rewrite Ea in Er; discriminate Er. }
    cbn [rbind] in E. destruct (IH _ _ (fun x Hx => H x (or_intror Hx)) E) as (es' & -> & W & N). exists (er ++ es'). rewrite app_assoc.
    split; [reflexivity|]. split; [intros x Hx; apply in_app_iff in Hx as [Hx|Hx]; [now apply Wr|auto]|].
    intros _. destruct Wr as [_ Wr]. destruct er; [congruence|discriminate].
Qed.
Lemma dc_agrees_any SHIFT mr reg rules acts : 0 < SHIFT -> SHIFT mod 2 = 0 -> rules_ok reg rules -> rules <> [] -> NoDup acts ->
  normalise_dc SHIFT mr acts rules = normalise_naive SHIFT mr acts rules.
Proof.
  intros Hs He H Ne N. destruct (all_entries mr rules) as [es|e] eqn:E.
  - destruct (entries_ok mr reg rules H es E) as [W Q]. apply (dc_sem SHIFT Hs He mr acts rules es E); auto.
  - rewrite naive_eq, dc_eq, E. reflexivity.
Qed.
