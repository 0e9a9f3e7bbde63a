(** Proofs about the headerspace class (C10). *)
From Verif Require Import Wildcard Spec WildcardProofs.
From Coq Require Import ZifyBool ZifyNat ZifyN Zwf.
Ltac Zify.zify_post_hook ::= Z.div_mod_to_equations.
Local Opaque NB.

Lemma hs_add_accepts h w p : hs_accepts (add_hs h w) p <-> hs_accepts h p \/ accepts w p.
Proof.
  unfold hs_accepts, add_hs. split.
  - intros [w0 [ds [Hin [Ha Hd]]]]. apply in_app_or in Hin as [Hin|[[= <- <-]|[]]]; [left|right]; eauto.
  - intros [[w0 [ds [Hin [Ha Hd]]]]|Ha].
    + exists w0, ds. split; [apply in_or_app; auto|auto].
    + exists w, []. split; [apply in_or_app; right; now left|]. split; [auto|intros d []].
Qed.

Lemma keep_accepts isect l p : accepts isect p ->
  ((forall d, In d (filter (fun d => negb (d =? 0)) (map (wildcard_intersect isect) l)) -> ~ accepts d p)
   <-> (forall d, In d l -> ~ accepts d p)).
Proof.
  intros Hi. split.
  - intros H d Hd Ha. assert (HA : accepts (wildcard_intersect isect d) p)
      by (apply wildcard_intersect_accepts; auto).
    apply (H (wildcard_intersect isect d)); auto. apply filter_In. split; [now apply in_map|].
    destruct (Z.eqb_spec (wildcard_intersect isect d) 0) as [E|]; [|reflexivity].
    rewrite E in HA. now apply accepts_0 in HA.
  - intros H d Hd Ha. apply filter_In in Hd as [Hd _]. apply in_map_iff in Hd as [d0 [<- Hd0]].
    apply wildcard_intersect_accepts in Ha as [_ Ha]. now apply (H d0).
Qed.

Lemma hs_intersect_accepts h o p : hs_accepts (hs_intersect h o) p <-> hs_accepts h p /\ hs_accepts o p.
Proof.
  unfold hs_accepts, hs_intersect. split.
  - intros [w [ds [Hin [Ha Hd]]]]. apply in_flat_map in Hin as [[w1 d1] [H1 Hin]].
    apply in_flat_map in Hin as [[w2 d2] [H2 Hin]]. unfold hs_pair_intersect in Hin. cbn [fst snd] in Hin.
    destruct (_ =? 0); [destruct Hin|]. destruct Hin as [[= <- <-]|[]].
    assert (HA := Ha). apply wildcard_intersect_accepts in HA as [A1 A2].
    split; [exists w1, d1|exists w2, d2]; (split; [auto|split; [auto|]]).
    + apply (keep_accepts _ _ _ Ha). intros d Hdd. apply Hd. apply in_or_app. auto.
    + apply (keep_accepts _ _ _ Ha). intros d Hdd. apply Hd. apply in_or_app. auto.
  - intros [[w1 [d1 [H1 [A1 D1]]]] [w2 [d2 [H2 [A2 D2]]]]].
    assert (HA : accepts (wildcard_intersect w1 w2) p) by (apply wildcard_intersect_accepts; auto).
    exists (wildcard_intersect w1 w2).
    exists (filter (fun d => negb (d =? 0)) (map (wildcard_intersect (wildcard_intersect w1 w2)) d1)
         ++ filter (fun d => negb (d =? 0)) (map (wildcard_intersect (wildcard_intersect w1 w2)) d2)).
    split; [|split; [auto|]].
    + apply in_flat_map. exists (w1, d1). split; [auto|]. apply in_flat_map. exists (w2, d2). split; [auto|].
      unfold hs_pair_intersect. cbn [fst snd].
      destruct (Z.eqb_spec (wildcard_intersect w1 w2) 0) as [E|]; [|now left].
      rewrite E in HA. now apply accepts_0 in HA.
    + intros d Hd. apply in_app_or in Hd as [Hd|Hd]; revert d Hd; apply (keep_accepts _ _ _ HA); auto.
Qed.

Lemma hs_diff_accepts h o p : hs_accepts (hs_diff h o) p <-> hs_accepts h p /\ ~ accepts o p.
Proof.
  unfold hs_accepts, hs_diff. split.
  - intros [w [ds [Hin [Ha Hd]]]]. apply in_map_iff in Hin as [[w1 d1] [E H1]]. cbn [fst snd] in E.
    destruct (Z.eqb_spec (wildcard_intersect w1 o) 0) as [E0|N0].
    + injection E as <- <-. split; [eauto|]. intros Ho.
      apply wildcard_intersect_zero in E0. apply E0. eauto.
    + injection E as <- <-. split.
      * exists w1, d1. split; [auto|]. split; [auto|]. intros d Hdd. apply Hd. apply in_or_app. auto.
      * intros Ho. apply (Hd (wildcard_intersect w1 o)); [apply in_or_app; right; now left|].
        apply wildcard_intersect_accepts. auto.
  - intros [[w [ds [Hin [Ha Hd]]]] Ho].
    exists w, (if wildcard_intersect w o =? 0 then ds else ds ++ [wildcard_intersect w o]).
    split; [|split; [auto|]].
    + apply in_map_iff. exists (w, ds). cbn [fst snd]. split; [|auto].
      destruct (_ =? 0); reflexivity.
    + intros d Hdd. destruct (_ =? 0); [auto|]. apply in_app_or in Hdd as [Hdd|[<-|[]]]; [auto|].
      intros Hx. apply wildcard_intersect_accepts in Hx. tauto.
Qed.

(** *** compress_wildcard_list keeps the union *)
Lemma subset_le a b : 0 <= a -> 0 <= b -> wildcard_is_subset a b = true -> a <= b.
Proof.
  intros Ha Hb H. unfold wildcard_is_subset in H. apply Z.eqb_eq in H.
  assert (E : Z.lor a b = b).
  { apply Z.bits_inj'. intros n Hn. rewrite Z.lor_spec. apply (f_equal (fun z => Z.testbit z n)) in H.
    rewrite Z.land_spec, Z.lnot_spec, Z.bits_0 in H by lia.
    destruct (Z.testbit a n), (Z.testbit b n); auto. }
  rewrite <- E. apply (Z.ldiff_le a (Z.lor a b)).
  - apply Z.lor_nonneg. auto.
  - apply Z.bits_inj'. intros n Hn. rewrite Z.ldiff_spec, Z.lor_spec, Z.bits_0.
    destruct (Z.testbit a n), (Z.testbit b n); reflexivity.
Qed.
Lemma subset_antisym a b : 0 <= a -> 0 <= b ->
  wildcard_is_subset a b = true -> wildcard_is_subset b a = true -> a = b.
Proof. intros Ha Hb H1 H2. apply subset_le in H1, H2; lia. Qed.
Lemma subset_accepts a b p : wildcard_is_subset a b = true -> accepts a p -> accepts b p.
Proof.
  unfold wildcard_is_subset. rewrite Z.eqb_eq, Z_zero_bits.
  intros H Hp i Hi. specialize (H (2 * i + (if p i then 1 else 0)) ltac:(destruct (p i); lia)).
  rewrite Z.land_spec, Z.lnot_spec, Hp in H by (destruct (p i); lia).
  destruct (Z.testbit b _); [reflexivity|discriminate H].
Qed.

Lemma cwl_inner_in i x : forall rest j k, In k (cwl_inner i x j rest) ->
  exists n y, nth_error rest n = Some y /\
   ((wildcard_is_subset x y = true /\ k = i) \/
    (wildcard_is_subset x y = false /\ wildcard_is_subset y x = true /\ k = (j + n)%nat)).
Proof.
  induction rest as [|y rest IH]; intros j k H; cbn [cwl_inner] in H; [destruct H|].
  apply in_app_or in H as [H|H].
  - exists 0%nat, y. split; [reflexivity|]. destruct (wildcard_is_subset x y) eqn:E.
    + destruct H as [<-|[]]. auto.
    + destruct (wildcard_is_subset y x) eqn:E'; [|destruct H]. destruct H as [<-|[]].
      right. repeat split; auto.
  - destruct (IH (S j) k H) as [n [y' [Hn Hc]]]. exists (S n), y'. split; [auto|].
    destruct Hc as [?|[? [? ->]]]; [auto|right; repeat split; auto; lia].
Qed.

Lemma cwl_outer_in : forall l i k, In k (cwl_outer i l) ->
  exists a b x y, (a < b)%nat /\ nth_error l a = Some x /\ nth_error l b = Some y /\
   ((wildcard_is_subset x y = true /\ k = (i + a)%nat) \/
    (wildcard_is_subset x y = false /\ wildcard_is_subset y x = true /\ k = (i + b)%nat)).
Proof.
  induction l as [|x l IH]; intros i k H; cbn [cwl_outer] in H; [destruct H|].
  apply in_app_or in H as [H|H].
  - apply cwl_inner_in in H as [n [y [Hn Hc]]]. exists 0%nat, (S n), x, y.
    split; [lia|]. split; [reflexivity|]. split; [auto|].
    destruct Hc as [[? ->]|[? [? ->]]]; [left|right]; repeat split; auto; lia.
  - destruct (IH _ _ H) as [a [b [x' [y' [Hab [Ha [Hb Hc]]]]]]]. exists (S a), (S b), x', y'.
    split; [lia|]. split; [auto|]. split; [auto|].
    destruct Hc as [[? ->]|[? [? ->]]]; [left|right]; repeat split; auto; lia.
Qed.

Lemma cwl_filter_in pop : forall l k x, In x (cwl_filter pop k l) <->
  exists n, nth_error l n = Some x /\ ~ In (k + n)%nat pop.
Proof.
  assert (E : forall k, existsb (Nat.eqb k) pop = true <-> In k pop).
  { intros k. rewrite existsb_exists. split; [intros [y [Hy E]]; apply Nat.eqb_eq in E; now subst|].
    intros H. exists k. split; auto. apply Nat.eqb_refl. }
  induction l as [|y l IH]; intros k x; cbn [cwl_filter].
  - split; [intros []|]. intros [[|n] [H _]]; discriminate.
  - destruct (existsb (Nat.eqb k) pop) eqn:Ek.
    + rewrite IH. split; intros [n [Hn Hp]].
      * exists (S n). split; [auto|]. now rewrite Nat.add_succ_r.
      * destruct n as [|n]; [exfalso; apply Hp; rewrite Nat.add_0_r; now apply E|].
        exists n. split; [auto|]. now rewrite Nat.add_succ_r in Hp.
    + cbn [In]. rewrite IH. split.
      * intros [<-|[n [Hn Hp]]].
        -- exists 0%nat. split; [reflexivity|]. rewrite Nat.add_0_r, <- E. congruence.
        -- exists (S n). split; [auto|]. now rewrite Nat.add_succ_r.
      * intros [[|n] [Hn Hp]]; [left; now injection Hn|right]. exists n. split; [auto|].
        now rewrite Nat.add_succ_r in Hp.
Qed.

Lemma compress_sub l x : In x (compress_wildcard_list l) -> In x l.
Proof.
  unfold compress_wildcard_list. rewrite cwl_filter_in. intros [n [Hn _]]. eapply nth_error_In; eauto.
Qed.

Lemma max_bound l : exists M, forall x, In x l -> x <= M.
Proof.
  induction l as [|y l [M HM]]; [exists 0; intros x []|].
  exists (Z.max y M). intros x [<-|H]; [lia|]. specialize (HM x H). lia.
Qed.

Lemma compress_covers l p : (forall x, In x l -> 0 <= x) ->
  (exists x, In x l /\ accepts x p) -> exists x, In x (compress_wildcard_list l) /\ accepts x p.
Proof.
  intros Hpos [x0 [Hin0 Ha0]]. apply In_nth_error in Hin0 as [k0 Hk0].
  set (n := Z.of_nat (List.length l)). destruct (max_bound l) as [M HM].
  (* climb to larger covering elements; the measure increases and is bounded *)
  assert (Climb : forall m k x, nth_error l k = Some x -> accepts x p ->
            m = x * (n + 1) + Z.of_nat k ->
            exists y, In y (compress_wildcard_list l) /\ accepts y p).
  { intros m. induction m as [m IH] using (well_founded_ind (Zwf_up_well_founded (M * (n + 1) + n))).
    intros k x Hk Ha Em.
    assert (Hkn : (k < List.length l)%nat) by (apply nth_error_Some; congruence).
    assert (Hx := Hpos x (nth_error_In _ _ Hk)). assert (HxM := HM x (nth_error_In _ _ Hk)).
    destruct (in_dec Nat.eq_dec k (cwl_outer 0 l)) as [Hpop|Hkeep].
    - apply cwl_outer_in in Hpop as [a [b [xa [xb [Hab [Ea [Eb Hc]]]]]]].
      assert (Hxa := Hpos xa (nth_error_In _ _ Ea)). assert (Hxb := Hpos xb (nth_error_In _ _ Eb)).
      assert (HaM := HM xa (nth_error_In _ _ Ea)). assert (HbM := HM xb (nth_error_In _ _ Eb)).
      assert (Han : (a < List.length l)%nat) by (apply nth_error_Some; congruence).
      assert (Hbn : (b < List.length l)%nat) by (apply nth_error_Some; congruence).
      destruct Hc as [[Hs ->]|[Hns [Hs ->]]].
      + rewrite Nat.add_0_l in Hk. rewrite Ea in Hk. injection Hk as ->.
        assert (x <= xb) by (apply subset_le; auto).
        apply (IH (xb * (n + 1) + Z.of_nat b)) with (k := b) (x := xb); auto.
        * unfold Zwf_up. subst m. assert (x * (n+1) <= xb * (n+1)) by (apply Z.mul_le_mono_nonneg_r; lia).
          assert (xb * (n+1) <= M * (n+1)) by (apply Z.mul_le_mono_nonneg_r; lia). lia.
        * eapply subset_accepts; eauto.
      + rewrite Nat.add_0_l in Hk. rewrite Eb in Hk. injection Hk as ->.
        assert (x <= xa) by (apply subset_le; auto).
        assert (x <> xa).
        { intros ->. unfold wildcard_is_subset in *. congruence. }
        apply (IH (xa * (n + 1) + Z.of_nat a)) with (k := a) (x := xa); auto.
        * unfold Zwf_up. subst m. assert ((x + 1) * (n+1) <= xa * (n+1)) by (apply Z.mul_le_mono_nonneg_r; lia).
          assert (xa * (n+1) <= M * (n+1)) by (apply Z.mul_le_mono_nonneg_r; lia). lia.
        * eapply subset_accepts; eauto.
    - exists x. split; [|auto]. unfold compress_wildcard_list. apply cwl_filter_in.
      exists k. auto. }
  eapply Climb; eauto.
Qed.

Lemma hs_clean_up_accepts h p : hs_ok h -> (hs_accepts (hs_clean_up h) p <-> hs_accepts h p).
Proof.
  intros Hok. unfold hs_accepts, hs_clean_up. split.
  - intros [w [ds [Hin [Ha Hd]]]]. apply in_flat_map in Hin as [[w1 d1] [H1 Hin]]. cbn [fst snd] in Hin.
    destruct (existsb (wildcard_is_subset w1) d1) eqn:E; [destruct Hin|].
    destruct Hin as [[= <- <-]|[]]. exists w1, d1. split; [auto|]. split; [auto|].
    intros d Hdd Had. destruct (compress_covers d1 p) as [y [Hy Hay]]; [|eauto|].
    + intros x Hx. apply (Hok _ _ H1) in Hx. apply Hx.
    + now apply (Hd y).
  - intros [w [ds [Hin [Ha Hd]]]]. exists w, (compress_wildcard_list ds). split; [|split; [auto|]].
    + apply in_flat_map. exists (w, ds). split; [auto|]. cbn [fst snd].
      destruct (existsb (wildcard_is_subset w) ds) eqn:E; [|now left].
      apply existsb_exists in E as [d [Hdd Hs]]. exfalso. apply (Hd d Hdd).
      eapply subset_accepts; eauto.
    + intros d Hdd. apply Hd. now apply compress_sub.
Qed.

(** Proper contents are preserved by all operations. *)
Lemma hs_ok_add h w : hs_ok h -> wc_ok w -> hs_ok (add_hs h w).
Proof.
  intros H Hw w0 ds Hin. apply in_app_or in Hin as [Hin|[[= <- <-]|[]]]; [now apply H|].
  split; [auto|intros d []].
Qed.
Lemma hs_ok_intersect h o : hs_ok h -> hs_ok o -> hs_ok (hs_intersect h o).
Proof.
  intros Hh Ho w ds Hin. apply in_flat_map in Hin as [[w1 d1] [H1 Hin]].
  apply in_flat_map in Hin as [[w2 d2] [H2 Hin]]. unfold hs_pair_intersect in Hin. cbn [fst snd] in Hin.
  destruct (Z.eqb_spec (wildcard_intersect w1 w2) 0) as [|N0]; [destruct Hin|].
  destruct Hin as [[= <- <-]|[]]. destruct (Hh _ _ H1) as [W1 D1].
  assert (WI := wildcard_intersect_ok w1 w2 (proj1 W1) N0). split; [auto|].
  intros d Hd. assert (Hx : exists d0, d = wildcard_intersect (wildcard_intersect w1 w2) d0 /\ d <> 0).
  { apply in_app_or in Hd as [Hd|Hd]; apply filter_In in Hd as [Hd Hn]; apply in_map_iff in Hd as [d0 [<- _]];
      exists d0; (split; [reflexivity|]); intros E; rewrite E in Hn; discriminate. }
  destruct Hx as [d0 [-> Hn]]. apply wildcard_intersect_ok; auto. apply WI.
Qed.
Lemma hs_ok_diff h o : hs_ok h -> hs_ok (hs_diff h o).
Proof.
  intros Hh w ds Hin. apply in_map_iff in Hin as [[w1 d1] [E H1]]. cbn [fst snd] in E.
  destruct (Hh _ _ H1) as [W1 D1].
  destruct (Z.eqb_spec (wildcard_intersect w1 o) 0) as [E0|N0]; injection E as <- <-; (split; [auto|]); auto.
  intros d Hd. apply in_app_or in Hd as [Hd|[<-|[]]]; auto. apply wildcard_intersect_ok; auto. apply W1.
Qed.
Lemma hs_ok_clean h : hs_ok h -> hs_ok (hs_clean_up h).
Proof.
  intros Hh w ds Hin. apply in_flat_map in Hin as [[w1 d1] [H1 Hin]]. cbn [fst snd] in Hin.
  destruct (existsb _ _); [destruct Hin|]. destruct Hin as [[= <- <-]|[]]. destruct (Hh _ _ H1) as [W1 D1].
  split; [auto|]. intros d Hd. apply D1. now apply compress_sub.
Qed.

(** The objects reachable through the API. *)
Inductive hs_expr :=
| HEmpty | HAdd (h : hs_expr) (w : Z) | HIntersect (h o : hs_expr) | HDiff (h : hs_expr) (w : Z) | HClean (h : hs_expr).
Fixpoint hs_eval (e : hs_expr) : headerspace :=
  match e with
  | HEmpty => hs_empty
  | HAdd h w => add_hs (hs_eval h) w
  | HIntersect h o => hs_intersect (hs_eval h) (hs_eval o)
  | HDiff h w => hs_diff (hs_eval h) w
  | HClean h => hs_clean_up (hs_eval h)
  end.
Fixpoint hs_expr_ok (e : hs_expr) : Prop :=
  match e with
  | HEmpty => True
  | HAdd h w => hs_expr_ok h /\ wc_ok w
  | HIntersect h o => hs_expr_ok h /\ hs_expr_ok o
  | HDiff h w => hs_expr_ok h /\ wc_ok w
  | HClean h => hs_expr_ok h
  end.
(** The set of packets the history of calls describes. *)
Fixpoint hs_denote (e : hs_expr) (p : packet) : Prop :=
  match e with
  | HEmpty => False
  | HAdd h w => hs_denote h p \/ accepts w p
  | HIntersect h o => hs_denote h p /\ hs_denote o p
  | HDiff h w => hs_denote h p /\ ~ accepts w p
  | HClean h => hs_denote h p
  end.

Lemma hs_eval_ok e : hs_expr_ok e -> hs_ok (hs_eval e).
Proof.
  induction e as [|h IH w|h IHh o IHo|h IH w|h IH]; cbn; intros H.
  - intros w ds [].
  - apply hs_ok_add; tauto.
  - apply hs_ok_intersect; tauto.
  - apply hs_ok_diff; tauto.
  - apply hs_ok_clean; tauto.
Qed.
Lemma hs_eval_denote e p : hs_expr_ok e -> (hs_accepts (hs_eval e) p <-> hs_denote e p).
Proof.
  induction e as [|h IH w|h IHh o IHo|h IH w|h IH]; cbn; intros H.
  - split; [intros [w [ds [[] _]]]|intros []].
  - rewrite hs_add_accepts, IH by tauto. tauto.
  - rewrite hs_intersect_accepts, IHh, IHo by tauto. tauto.
  - rewrite hs_diff_accepts, IH by tauto. tauto.
  - rewrite hs_clean_up_accepts, IH by (auto; now apply hs_eval_ok). tauto.
Qed.
Lemma hs_empty_sound e : hs_expr_ok e -> hs_is_empty (hs_eval (HClean e)) = true -> forall p, ~ hs_denote e p.
Proof.
  intros H He p Hp. apply hs_eval_denote in Hp; auto.
  apply hs_clean_up_accepts in Hp; [|now apply hs_eval_ok]. cbn [hs_eval] in He.
  destruct (hs_clean_up (hs_eval e)); [|discriminate]. destruct Hp as [w [ds [[] _]]].
Qed.

(** The counterexample to completeness: x minus the two halves 0... and 1... *)
Definition half0 : Z := Z.clearbit WC_FULLWC 3167.
Definition half1 : Z := Z.clearbit WC_FULLWC 3166.
Definition two_halves : hs_expr := HDiff (HDiff (HAdd HEmpty WC_FULLWC) half0) half1.

Lemma two_halves_refuted : exists e, hs_expr_ok e /\
  (forall p, ~ hs_denote e p) /\ hs_is_empty (hs_eval (HClean e)) = false.
Proof.
  exists two_halves. unfold two_halves. split; [|split].
  - assert (F : wc_ok WC_FULLWC /\ wc_ok half0 /\ wc_ok half1); [|destruct F as [F0 [F1 F2]]; exact (conj (conj (conj I F0) F1) F2)].
    assert (B : forall w, 0 <= w -> (w <? 2 ^ (2 * NB)) = true ->
        forallb (fun i => Z.testbit w (2 * i) || Z.testbit w (2 * i + 1)) (seqZ (Z.to_nat NB)) = true -> wc_ok w).
    { intros w H0 H1 H2. rewrite forallb_forall in H2. apply Z.ltb_lt in H1. split; [now split|].
      intros i Hi. apply orb_true_iff, H2. apply in_seqZ. rewrite Z2Nat.id; [exact Hi|]. apply Z.lt_le_incl, NB_pos. }
    split; [|split]; (apply B; [vm_compute; discriminate|vm_compute; reflexivity|vm_compute; reflexivity]).
  - intros p. cbn [hs_denote]. intros [[[[]|Ha] H0] H1].
    assert (H : accepts half0 p \/ accepts half1 p); [|destruct H as [H|H]; [exact (H0 H)|exact (H1 H)]].
    destruct (p 1583) eqn:E; [right|left]; intros i Hi; specialize (Ha i Hi);
      unfold half0, half1; rewrite Z.clearbit_eqb by lia; rewrite Ha; cbn [andb];
      apply negb_true_iff, Z.eqb_neq; (destruct (Z.eq_dec i 1583) as [->|Hne]; [rewrite E; discriminate|]);
      destruct (p i); lia.
  - vm_compute. reflexivity.
Qed.
