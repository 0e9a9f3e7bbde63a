(** Dependencies across tables: the indirect builder. *)
From Coq Require Import Lia Permutation Sorted.
From Coq Require Import ZifyBool ZifyNat ZifyN.
From Verif Require Import SpecBdd WildcardProofs MatchProofs BddProofs CuddProofs BddApi SpecPipeline MergeProofs Deps DepsInd SpecDeps DepsProofs DepsTable DepsMultiProofs.
Local Open Scope string_scope.
Local Open Scope list_scope.
Local Open Scope Z_scope.
Local Opaque NB WC_FULLWC layout oxm_fields registry_init.

(** ** Arriving *)
Lemma hdr_ext i p q k : (forall j, p j = q j) -> inst_header i p k = inst_header i q k.
Proof. intros H. rewrite !inst_header_rw. unfold apply_rw. now rewrite H. Qed.
Lemma arrives_ext rules t p j q : arrives rules t p j q -> forall p', (forall b, p b = p' b) -> exists q', arrives rules t p' j q' /\ forall b, q b = q' b.
Proof.
  induction 1 as [t p j S0 H1 H2 H3|t p k S0 t' j q H1 H2 H3 H4 H5 IH]; intros p' E.
  - exists p'. split; [|exact E]. eapply arr_here; eauto. eapply maccepts_ext; [exact E|exact H3].
  - destruct (IH (inst_header (inst (rcore S0)) p')) as (q' & A & B); [intros b; now apply hdr_ext|].
    exists q'. split; [|exact B]. eapply arr_goto; eauto. eapply maccepts_ext; [exact E|exact H3].
Qed.
Lemma arrives_accepts rules t p j q : arrives rules t p j q -> exists R, nth_error rules j = Some R /\ rule_accepts R q.
Proof. induction 1 as [t p j S0 H1 H2 H3|t p k S0 t' j q H1 H2 H3 H4 H5 IH]; eauto. Qed.

(** ** The egress of a rule for the packets that reach it *)
Definition within (m : option Match) (p : packet) : Prop := match m with None => True | Some g => maccepts g p end.
Lemma match_nonempty r m : match_ok r m -> exists p, maccepts m p.
Proof. intros H. destruct (match_wc_ok r m H) as (w & _ & W & _ & A). destruct (zfree_nonempty _ (proj2 W)) as (p & Hp). exists p. now apply A. Qed.
Lemma egress_from r s i : reg_ok r -> match_ok r s -> inst_ok i -> plain_acts (orig_order (apply_actions i)) ->
  runs (get_goto_egress s i None) r (fun r' g => match_ok r' g /\ forall p, maccepts g p <-> exists q, maccepts s q /\ forall b, p b = inst_header i q b).
Proof.
  intros Hr Hm Hi Hp. unfold get_goto_egress. eapply runs_bind; [apply egress_runs; eauto|]. cbn beta. intros r1 e R1 L1 H. apply runs_ret; [auto|].
  split; [apply (eo_sim _ _ _ _ H)|]. assert (Bit := eo_bit _ _ _ _ H). intros p. rewrite (accepts_cbit _ _ (proj1 (eo_sim _ _ _ _ H))). split.
  - intros Hg. exists (fun k => match cbit s k with Some c => c | None => p k end). split.
    + apply (accepts_cbit _ _ (proj1 Hm)). intros k c Hc. now rewrite Hc.
    + intros b. rewrite inst_header_rw. unfold apply_rw. specialize (Hg b). rewrite Bit in Hg.
      destruct (rinst i b) as [c|]; cbn [ov] in Hg; [now apply Hg|]. destruct (cbit s b) as [c|]; [now apply Hg|reflexivity].
  - intros (q & Hq & E2) k c Hc. rewrite E2, inst_header_rw. unfold apply_rw. rewrite Bit in Hc.
    destruct (rinst i k) as [c'|]; cbn [ov] in Hc; [now injection Hc|].
    now apply (accepts_cbit _ _ (proj1 Hm)) with (i := k) (b := c) in Hq.
Qed.
Lemma runs_try {A} (c : st A) r post : runs c r post -> runs (s_try c) r (fun r' g => match g with Some a => post r' a | None => False end).
Proof. intros (r' & a & E & R & L & P). exists r', (Some a). unfold s_try. rewrite E. auto. Qed.
Lemma egress_ingress m i g r : m_items g <> [] ->
  get_goto_egress m i (Some g) r = match s_intersection m g r with (r1, Ok s) => get_goto_egress s i None r1 | (r1, Err e) => (r1, Err e) end.
Proof.
  intros H. unfold get_goto_egress, simulated_egress. destruct (m_items g) as [|x l]; [congruence|].
  unfold sbind at 1 2. destruct (s_intersection m g r) as [r1 [s|e]]; reflexivity.
Qed.
Lemma intersection_disjoint r a b : match_ok r a -> match_ok r b -> (~ exists p, maccepts a p /\ maccepts b p) -> exists e, s_intersection a b r = (r, Err e).
Proof.
  intros Ha Hb N. unfold s_intersection. destruct (match_wc_ok r a Ha) as (wa & -> & Wa & _ & Aa). destruct (match_wc_ok r b Hb) as (wb & -> & Wb & _ & Ab).
  unfold match_intersection. assert (E : wildcard_intersect wa wb = 0).
  { destruct (Z.eq_dec (wildcard_intersect wa wb) 0) as [E|E]; [exact E|]. elim N.
    destruct (wildcard_intersect_ok wa wb (proj1 Wa) E) as [_ Hz]. destruct (zfree_nonempty _ Hz) as (q & Hq).
    apply wildcard_intersect_accepts in Hq as [H1 H2]. exists q. split; [now apply Aa|now apply Ab]. }
  rewrite E, flowmatches_zero. eauto.
Qed.
Lemma overlap_dec r a b : match_ok r a -> match_ok r b -> {exists p, maccepts a p /\ maccepts b p} + {~ exists p, maccepts a p /\ maccepts b p}.
Proof.
  intros Ha Hb. assert (Ea : is_ok (match_wc a) = true) by (destruct (match_wc_ok r a Ha) as (w & -> & _); reflexivity).
  assert (Eb : is_ok (match_wc b) = true) by (destruct (match_wc_ok r b Hb) as (w & -> & _); reflexivity).
  destruct (match_wc a) as [wa|] eqn:Wa; [|discriminate Ea]. destruct (match_wc b) as [wb|] eqn:Wb; [|discriminate Eb].
  destruct (Z.eq_dec (wildcard_intersect wa wb) 0) as [E|E]; [right|left].
  - intros (p & H1 & H2). destruct (match_wc_ok r a Ha) as (w & X & _ & _ & Aa). destruct (match_wc_ok r b Hb) as (w' & X' & _ & _ & Ab).
    rewrite Wa in X. rewrite Wb in X'. injection X as <-. injection X' as <-. apply wildcard_intersect_zero in E. apply E. exists p. split; [now apply Aa|now apply Ab].
  - destruct (match_wc_ok r a Ha) as (w & X & W & _ & Aa). destruct (match_wc_ok r b Hb) as (w' & X' & _ & _ & Ab).
    rewrite Wa in X. rewrite Wb in X'. injection X as <-. injection X' as <-.
    destruct (wildcard_intersect_ok wa wb (proj1 W) E) as [_ Hz]. destruct (zfree_nonempty _ Hz) as (q & Hq).
    apply wildcard_intersect_accepts in Hq as [H1 H2]. exists q. split; [now apply Aa|now apply Ab].
Qed.
Lemma try_egress r R m : reg_ok r -> match_ok r (rmatch (rcore R)) -> egress_safe R -> (forall g, m = Some g -> match_ok r g) ->
  runs (s_try (get_goto_egress (rmatch (rcore R)) (inst (rcore R)) m)) r (fun r' g => match g with
    | None => ~ exists p, within m p /\ rule_accepts R p
    | Some e => match_ok r' e /\ (exists p, within m p /\ rule_accepts R p) /\
        forall p, maccepts e p <-> exists q, within m q /\ rule_accepts R q /\ forall b, p b = inst_header (inst (rcore R)) q b
    end).
Proof.
  intros Hr Hm [Hi Hp] Hg. destruct m as [g|].
  - specialize (Hg g eq_refl). cbn [within]. destruct (m_items g) as [|x l] eqn:Eg.
    + assert (All : forall p, maccepts g p) by (intros p; unfold maccepts; rewrite Eg; intros it []).
      assert (E : get_goto_egress (rmatch (rcore R)) (inst (rcore R)) (Some g) = get_goto_egress (rmatch (rcore R)) (inst (rcore R)) None)
        by (unfold get_goto_egress, simulated_egress; rewrite Eg; reflexivity).
      rewrite E. eapply runs_weaken; [apply runs_try, egress_from; eauto|]. cbn beta. intros r1 [e|] R1 L1; [|intros []]. intros [M A].
      split; [exact M|]. split; [destruct (match_nonempty _ _ Hm) as (p & Hp'); exists p; auto|].
      intros p. rewrite A. split; intros (q & H); exists q; [destruct H as [H1 H2]; auto|tauto].
    + destruct (overlap_dec r _ _ Hm Hg) as [Y|N].
      * destruct (intersection_runs r _ _ Hr Hm Hg Y) as (r1 & s & Es & R1 & L1 & Ms & As & _).
        destruct (egress_from r1 s (inst (rcore R)) R1 Ms Hi Hp) as (r2 & e & Ee & R2 & L2 & Me & Ae).
        exists r2, (Some e). unfold s_try. rewrite (egress_ingress _ _ g r) by congruence. rewrite Es, Ee. split; [reflexivity|]. split; [auto|].
        split; [eapply rle_trans; eauto|]. split; [exact Me|]. split; [destruct Y as (p & H1 & H2); exists p; auto|].
        intros p. rewrite Ae. split; intros (q & H); exists q.
        -- destruct H as [H1 H2]. apply As in H1 as [H1 H3]. auto.
        -- destruct H as (H1 & H2 & H3). split; [|exact H3]. apply As. auto.
      * destruct (intersection_disjoint r _ _ Hm Hg N) as (e & Es). exists r, None. unfold s_try. rewrite (egress_ingress _ _ g r) by congruence. rewrite Es.
        split; [reflexivity|]. split; [auto|]. split; [apply rle_refl|]. intros (p & H1 & H2). apply N. exists p. auto.
  - eapply runs_weaken; [apply runs_try, egress_from; eauto|]. cbn beta. intros r1 [e|] R1 L1; [|intros []]. intros [M A].
    split; [exact M|]. split; [destruct (match_nonempty _ _ Hm) as (p & Hp'); exists p; split; [exact Logic.I|auto]|].
    intros p. rewrite A. split; intros (q & H); exists q; [destruct H as [H1 H2]; split; [exact Logic.I|auto]|tauto].
Qed.
Lemma overlaps_runs r R m : reg_ok r -> match_ok r (rmatch (rcore R)) -> (forall g, m = Some g -> match_ok r g) ->
  runs (overlaps_ingress m (rcore R)) r (fun _ b => b = true <-> exists p, within m p /\ rule_accepts R p).
Proof.
  intros Hr Hm Hg. destruct m as [g|]; cbn [overlaps_ingress within].
  - specialize (Hg g eq_refl). destruct (match_wc_ok r g Hg) as (wg & Eg & Wg & _ & Ag). destruct (match_wc_ok r _ Hm) as (wr & Er & Wr & _ & Ar).
    rewrite Eg, Er. exists r, (negb (wildcard_intersect wg wr =? 0)). split; [reflexivity|]. split; [auto|]. split; [apply rle_refl|].
    destruct (Z.eqb_spec (wildcard_intersect wg wr) 0) as [E|E]; cbn [negb]; split; try discriminate; try reflexivity.
    + intros (p & H1 & H2). apply wildcard_intersect_zero in E. elim E. exists p. split; [now apply Ag|now apply Ar].
    + intros _. destruct (wildcard_intersect_ok wg wr (proj1 Wg) E) as [_ Hz]. destruct (zfree_nonempty _ Hz) as (q & Hq).
      apply wildcard_intersect_accepts in Hq as [H1 H2]. exists q. split; [now apply Ag|now apply Ar].
  - apply runs_ret; [auto|]. split; [|reflexivity]. intros _. destruct (match_nonempty _ _ Hm) as (p & Hp). exists p. split; [exact Logic.I|exact Hp].
Qed.
Lemma add_all_in parents k : forall e x, In x (add_all parents k e) <-> In x e \/ (In (fst x) parents /\ snd x = k).
Proof.
  induction parents as [|a parents IH]; intros e x; cbn [add_all fold_left In].
  - intuition auto.
  - change (In x (add_all parents k (eadd e (a, k))) <-> In x e \/ ((a = fst x \/ In (fst x) parents) /\ snd x = k)). rewrite IH, eadd_in.
    destruct x as [i j]; cbn [fst snd]. split; [intros [[[= -> ->]|H]|H]|intros [H|[[->|H] ->]]]; intuition auto.
Qed.
Lemma add_all_nodup parents k : forall e, NoDup e -> NoDup (add_all parents k e).
Proof. induction parents as [|a parents IH]; intros e H; cbn [add_all fold_left]; [exact H|]. apply IH. now apply eadd_nodup. Qed.

(** the keys of the dict of tables *)
Lemma table_keys_in objs t : In t (table_keys objs) <-> exists x, In x objs /\ table (rcore (snd x)) = t.
Proof.
  assert (G : forall l acc, In t (fold_left (fun acc x => let t := table (rcore (snd x)) in if existsb (Z.eqb t) acc then acc else acc ++ [t]) l acc) <->
    In t acc \/ exists x : nat * rule, In x l /\ table (rcore (snd x)) = t).
  { induction l as [|y l IH]; intros acc; cbn [fold_left].
    - split; [auto|]. intros [H|(x & [] & _)]; exact H.
    - rewrite IH. destruct (existsb (Z.eqb (table (rcore (snd y)))) acc) eqn:E; cbv zeta; rewrite ?E.
      + apply existsb_exists in E as (z & Hz & E). apply Z.eqb_eq in E. subst z. split.
        * intros [H|(x & H1 & H2)]; [auto|right; exists x; cbn [In]; auto].
        * intros [H|(x & [<-|H1] & H2)]; [auto| |right; eauto]. left. congruence.
      + rewrite in_app_iff. cbn [In]. split.
        * intros [[H|[H|[]]]|(x & H1 & H2)]; [auto| |]; right; [exists y|exists x]; cbn [In]; auto.
        * intros [H|(x & [<-|H1] & H2)]; [auto|auto|right; eauto]. }
  unfold table_keys. rewrite G. cbn [In]. intuition auto.
Qed.

Lemma filter_short {A} (f : A -> bool) l : (List.length (filter f l) <= List.length l)%nat.
Proof. induction l as [|x l IH]; cbn [filter List.length]; [lia|]. destruct (f x); cbn [List.length]; lia. Qed.

Section Rec.
  Context (rules : list rule) (r0 : registry).
  Let objs := objects rules.
  Context (Hm : forall R, In R rules -> match_ok r0 (rmatch (rcore R))) (H0 : forall R, In R rules -> 0 <= table (rcore R))
    (Hg : forall R t, In R rules -> goto_table (inst (rcore R)) = Some t -> table (rcore R) < t /\ egress_safe R /\ exists S, In S rules /\ table (rcore S) = t).

  Definition hdr (R : rule) : packet -> packet := inst_header (inst (rcore R)).
  Definition inner (t : Z) (p : packet) (e : edge) : Prop :=
    exists q R t' q', arrives rules t p (fst e) q /\ nth_error rules (fst e) = Some R /\ goto_table (inst (rcore R)) = Some t' /\ arrives rules t' (hdr R q) (snd e) q'.
  Definition news (t : Z) (m : option Match) (parents : list nat) (e : edge) : Prop :=
    exists p, within m p /\ ((In (fst e) parents /\ exists q, arrives rules t p (snd e) q) \/ inner t p e).
  Definition contrib (m : option Match) (parents : list nat) (x : nat * rule) (e : edge) : Prop :=
    exists p, within m p /\ rule_accepts (snd x) p /\
    ((In (fst e) parents /\ snd e = fst x) \/
     exists t', goto_table (inst (rcore (snd x))) = Some t' /\
       ((In (fst e) (parents ++ [fst x]) /\ exists q, arrives rules t' (hdr (snd x) p) (snd e) q) \/ inner t' (hdr (snd x) p) e)).
  Lemma news_contrib t m parents e : news t m parents e <-> exists x, In x (with_table t objs) /\ contrib m parents x e.
  Proof.
    split.
    - intros (p & Hp & [[Ha (q & H)]|(q & R & t' & q' & A1 & HR & HG & A2)]).
      + inversion H as [t0 p0 j S0 H1 H2 H3|t0 p0 k S0 t' j q0 H1 H2 H3 H4 H5]; subst.
        * exists (snd e, S0). split; [apply with_table_in; split; [now apply objects_in|reflexivity]|]. exists q. split; [auto|]. split; [auto|]. left. auto.
        * exists (k, S0). split; [apply with_table_in; split; [now apply objects_in|reflexivity]|]. exists p. split; [auto|]. split; [auto|]. right. exists t'. split; [auto|].
          left. split; [apply in_or_app; auto|]. eauto.
      + inversion A1 as [t0 p0 j S0 H1 H2 H3|t0 p0 k S0 t1 j q0 H1 H2 H3 H4 H5]; subst.
        * assert (S0 = R) by congruence. subst S0. exists (fst e, R). split; [apply with_table_in; split; [now apply objects_in|reflexivity]|]. exists q. split; [auto|]. split; [auto|].
          right. exists t'. split; [exact HG|]. left. split; [apply in_or_app; right; now left|]. cbn [snd]. eauto.
        * exists (k, S0). split; [apply with_table_in; split; [now apply objects_in|reflexivity]|]. exists p. split; [auto|]. split; [auto|]. right. exists t1. split; [auto|].
          right. exists q, R, t', q'. auto.
    - intros ([k S0] & Hx & p & Hp & HA & H). apply with_table_in in Hx as [Hx Et]. apply objects_in in Hx. cbn [fst snd] in *. exists p. split; [exact Hp|].
      destruct H as [[H1 H2]|(t' & HG & [[H1 (q & H2)]|(q & R & t2 & q' & A1 & HR & HG2 & A2)])].
      + left. split; [exact H1|]. exists p. rewrite H2. eapply arr_here; eauto.
      + apply in_app_or in H1 as [H1|[H1|[]]].
        * left. split; [exact H1|]. exists q. eapply arr_goto; eauto.
        * right. exists p, S0, t', q. rewrite <- H1. split; [eapply arr_here; eauto|]. auto.
      + right. exists q, R, t2, q'. split; [exact (arr_goto _ _ _ _ _ _ _ _ Hx Et HA HG A1)|]. auto.
  Qed.

  Lemma news_egress t' S0 m parents e p : (forall p, maccepts e p <-> exists q, within m q /\ rule_accepts S0 q /\ forall b, p b = hdr S0 q b) ->
    (news t' (Some e) parents p <-> exists q, within m q /\ rule_accepts S0 q /\
      ((In (fst p) parents /\ exists q', arrives rules t' (hdr S0 q) (snd p) q') \/ inner t' (hdr S0 q) p)).
  Proof.
    intros A. split.
    - intros (x & Hx & H). cbn [within] in Hx. apply A in Hx as (q & H1 & H2 & H3). exists q. split; [auto|]. split; [auto|].
      destruct H as [[H (y & Hy)]|(y & R & t2 & q' & A1 & HR & HG & A2)].
      + left. split; [exact H|]. destruct (arrives_ext _ _ _ _ _ Hy _ H3) as (q' & B & _). eauto.
      + right. destruct (arrives_ext _ _ _ _ _ A1 _ H3) as (y' & B & E). 
        destruct (arrives_ext _ _ _ _ _ A2 (hdr R y')) as (q'' & B' & _); [intros b; now apply hdr_ext|]. exists y', R, t2, q''. auto.
    - intros (q & H1 & H2 & H). exists (hdr S0 q). split; [|exact H]. cbn [within]. apply A. exists q. auto.
  Qed.

  Definition deeper (t : Z) : nat := List.length (filter (fun x => t <=? table (rcore (snd x))) objs).
  Lemma deeper_lt t t' : t < t' -> with_table t objs <> [] -> (deeper t' < deeper t)%nat.
  Proof.
    intros Lt H. unfold deeper, with_table in *. induction objs as [|x l IH]; cbn [filter] in *; [congruence|].
    assert (Le : forall l : list (nat * rule), (List.length (filter (fun x => (t' <=? table (rcore (snd x)))%Z) l) <= List.length (filter (fun x => (t <=? table (rcore (snd x)))%Z) l))%nat).
    { clear - Lt. induction l as [|x l IH]; cbn [filter]; [lia|]. destruct (Z.leb_spec t' (table (rcore (snd x)))), (Z.leb_spec t (table (rcore (snd x)))); cbn [List.length]; lia. }
    destruct (Z.eqb_spec (table (rcore (snd x))) t) as [E|E].
    - assert (E1 : (t' <=? table (rcore (snd x))) = false) by lia. assert (E2 : (t <=? table (rcore (snd x))) = true) by lia. rewrite E1, E2. cbn [List.length]. specialize (Le l). lia.
    - specialize (IH H). destruct (Z.leb_spec t' (table (rcore (snd x)))), (Z.leb_spec t (table (rcore (snd x)))); cbn [List.length]; lia.
  Qed.

  Lemma recurse_runs : forall fuel t m parents s r, reg_ok r -> rle r0 r -> (forall g, m = Some g -> match_ok r g) ->
    (deeper t < fuel)%nat -> with_table t objs <> [] -> NoDup (fst s) ->
    runs (recurse_goto fuel objs t m parents s) r (fun _ s' => snd s' = snd s /\ NoDup (fst s') /\ forall e, In e (fst s') <-> In e (fst s) \/ news t m parents e).
  Proof.
    induction fuel as [|fuel IH]; intros t m parents s r Hr Hle Hmm Hf Hne ND; [lia|]. cbn [recurse_goto].
    assert (Efl : (match with_table t objs with [] => true | _ => false end) = false) by (destruct (with_table t objs); [congruence|reflexivity]).
    rewrite Efl, orb_false_r.
    eapply runs_weaken with (post := fun _ s' => snd s' = snd s /\ NoDup (fst s') /\ forall e, In e (fst s') <-> In e (fst s) \/ exists x, In x (with_table t objs) /\ contrib m parents x e).
    2:{ cbn beta. intros r' s' _ _ (A & B & C). split; [exact A|]. split; [exact B|]. intros e. rewrite C, news_contrib. reflexivity. }
    assert (G : forall todo done r1 s1, reg_ok r1 -> rle r r1 -> done ++ todo = with_table t objs -> snd s1 = snd s -> NoDup (fst s1) ->
      (forall e, In e (fst s1) <-> In e (fst s) \/ exists x, In x done /\ contrib m parents x e) ->
      runs (sfold (fun s x =>
      let R := rcore (snd x) in
      match goto_table (inst R) with
      | None =>
        sdo b <- overlaps_ingress m R;
        sret (if b then (add_all parents (fst x) (fst s), snd s) else s)
      | Some t' =>
        sdo g <- s_try (get_goto_egress (rmatch R) (inst R) m);
        match g with
        | None => sret s
        | Some egress =>
          let s := (add_all parents (fst x) (fst s), snd s) in
          if t' =? 0 then sret s else
          if t <? t' then recurse_goto fuel objs t' (Some egress) (parents ++ [fst x]) s
          else slift (Err AssertionError)
        end
      end) todo s1) r1 (fun _ s' => snd s' = snd s /\ NoDup (fst s') /\ forall e, In e (fst s') <-> In e (fst s) \/ exists x, In x (with_table t objs) /\ contrib m parents x e)).
    { induction todo as [|[k S0] todo IHt]; intros done r1 s1 R1 L1 E Es ND1 Inv; cbn [sfold].
      - rewrite app_nil_r in E. subst done. apply runs_ret; auto.
      - assert (Hx : In (k, S0) (with_table t objs)) by (rewrite <- E; apply in_elt). apply with_table_in in Hx as [Hx Et]. cbn [snd] in Et.
        assert (HS := objects_rule _ _ Hx). cbn [snd] in HS. cbn [fst snd].
        assert (Lr : rle r0 r1) by (eapply rle_trans; eauto).
        assert (MS : match_ok r1 (rmatch (rcore S0))) by (eapply match_ok_mono; [exact Lr|auto]).
        assert (Mg : forall g, m = Some g -> match_ok r1 g) by (intros g Eg; eapply match_ok_mono; [exact L1|auto]).
        eapply runs_bind with (post := fun _ s' => snd s' = snd s /\ NoDup (fst s') /\ forall e, In e (fst s') <-> In e (fst s1) \/ contrib m parents (k, S0) e).
        + cbv zeta. destruct (goto_table (inst (rcore S0))) as [t'|] eqn:EG.
          * destruct (Hg S0 t' HS EG) as (Lt & Hsafe & S' & HS' & Et'). eapply runs_bind; [apply try_egress; auto|]. cbn beta. intros r2 [e|] R2 L2 He.
            -- destruct He as (Me & Ex & Ae). assert (Z0 : (t' =? 0) = false) by (specialize (H0 S0 HS); lia). rewrite Z0.
               assert (Zt : (t <? t') = true) by lia. rewrite Zt.
               eapply runs_weaken; [apply IH|].
               ++ exact R2. ++ eapply rle_trans; eauto. ++ intros g [= <-]. exact Me.
               ++ assert (D := deeper_lt t t' ltac:(lia) Hne). lia.
               ++ apply rule_object in HS' as [k' HS']. intros X. assert (Y : In (k', S') (with_table t' objs)) by (apply with_table_in; auto). rewrite X in Y. destruct Y.
               ++ cbn [fst]. now apply add_all_nodup.
               ++ cbn beta. cbn [fst snd]. intros r3 s3 _ _ (A & B & C). split; [congruence|]. split; [exact B|].
                  intros x. rewrite C, add_all_in, (news_egress t' S0 m _ e x Ae). unfold contrib. cbn [fst snd]. split.
                  ** intros [[H|[H1 H2]]|(q & H1 & H2 & H3)]; [auto| |].
                     --- right. destruct Ex as (p & P1 & P2). exists p. auto.
                     --- right. exists q. split; [auto|]. split; [auto|]. right. exists t'. auto.
                  ** intros [H|(p & H1 & H2 & [H3|(t2 & H3 & H4)])]; [auto|auto|]. right. assert (t2 = t') by congruence. subst t2. exists p. auto.
            -- apply runs_ret; [auto|]. split; [exact Es|]. split; [exact ND1|]. intros e. split; [auto|]. intros [H|(p & H1 & H2 & _)]; [exact H|].
               elim He. exists p. auto.
          * eapply runs_bind; [apply overlaps_runs; eauto|]. cbn beta. intros r2 b R2 L2 Hb. apply runs_ret; [auto|].
            destruct b; cbn [fst snd].
            -- split; [exact Es|]. split; [now apply add_all_nodup|]. intros e. rewrite add_all_in. split.
               ++ intros [H|H]; [auto|]. right. destruct (proj1 Hb eq_refl) as (p & P1 & P2). exists p. auto.
               ++ intros [H|(p & H1 & H2 & [H3|(t2 & H3 & _)])]; [auto|auto|]. cbn [snd] in H3. congruence.
            -- split; [exact Es|]. split; [exact ND1|]. intros e. split; [auto|]. intros [H|(p & H1 & H2 & _)]; [exact H|].
               assert (X : false = true) by (apply Hb; exists p; auto). discriminate X.
        + cbn beta. intros r2 s2 R2 L2 (A & B & C). apply (IHt (done ++ [(k, S0)])); [auto|eapply rle_trans; eauto|now rewrite <- app_assoc|exact A|exact B|].
          intros e. rewrite C, Inv. split.
          * intros [[H|(x & H1 & H2)]|H]; [auto|right; exists x|right; exists (k, S0)]; rewrite in_app_iff; cbn [In]; auto.
          * intros [H|(x & H1 & H2)]; [auto|]. apply in_app_or in H1 as [H1|[<-|[]]]; eauto. }
    apply (G (with_table t objs) [] r (fst s, snd s)); [auto|apply rle_refl|reflexivity|reflexivity|exact ND|].
    intros e. cbn [fst]. split; [auto|]. intros [H|(x & [] & _)]; exact H.
  Qed.

  Lemma chain_news i j : (exists p, goto_chain rules i j p) <-> exists t, In t (table_keys objs) /\ news t None [] (i, j).
  Proof.
    split.
    - intros (p & R & t & q & HR & HA & HG & Ar). exists (table (rcore R)). split; [apply table_keys_in; exists (i, R); split; [now apply objects_in|reflexivity]|].
      exists p. split; [exact Logic.I|]. right. exists p, R, t, q. cbn [fst snd]. split; [eapply arr_here; eauto|]. auto.
    - intros (t & _ & p & _ & [[[] _]|(q & R & t' & q' & A1 & HR & HG & A2)]). cbn [fst snd] in *.
      exists q, R, t', q'. split; [exact HR|]. split; [|auto]. apply arrives_accepts in A1 as (R' & HR' & A). assert (X : R' = R) by congruence. now rewrite X in A.
  Qed.

  Lemma goto_edges_runs r : reg_ok r -> rle r0 r -> runs (ind_goto_edges objs) r (fun _ e => NoDup e /\ forall i j, In (i, j) e <-> exists p, goto_chain rules i j p).
  Proof.
    intros Hr Hle. unfold ind_goto_edges.
    assert (G : forall todo done r1 e1, reg_ok r1 -> rle r r1 -> done ++ todo = table_keys objs -> NoDup e1 ->
      (forall e, In e e1 <-> exists t, In t done /\ news t None [] e) ->
      runs (sfold (fun e t =>
        sdo (e, added) <- recurse_goto (S (S (List.length objs))) objs t None [] (e, false);
        if added : bool then slift (Err RuntimeError) else sret e) todo e1) r1 (fun _ e' => NoDup e' /\ forall e, In e e' <-> exists t, In t (table_keys objs) /\ news t None [] e)).
    { induction todo as [|t todo IH]; intros done r1 e1 R1 L1 E ND Inv; cbn [sfold].
      - rewrite app_nil_r in E. subst done. apply runs_ret; auto.
      - assert (Ht : In t (table_keys objs)) by (rewrite <- E; apply in_elt). apply table_keys_in in Ht as (x & Hx & Et).
        eapply runs_bind with (post := fun _ e' => NoDup e' /\ forall e, In e e' <-> In e e1 \/ news t None [] e).
        + eapply runs_bind; [apply (recurse_runs (S (S (List.length objs))) t None [] (e1, false) r1)|].
          * exact R1. * eapply rle_trans; eauto. * discriminate.
          * unfold deeper. assert (X := filter_short (fun x => t <=? table (rcore (snd x))) objs). lia.
          * intros X. assert (Y : In x (with_table t objs)) by (apply with_table_in; auto). rewrite X in Y. destruct Y.
          * exact ND.
          * cbn beta. intros r2 [e2 a] R2 L2 (A & B & C). cbn [fst snd] in A, B, C. subst a. apply runs_ret; auto.
        + cbn beta. intros r2 e2 R2 L2 [N2 I2]. apply (IH (done ++ [t])); [auto|eapply rle_trans; eauto|now rewrite <- app_assoc|exact N2|].
          intros e. rewrite I2, Inv. split.
          * intros [(t1 & H1 & H2)|H]; [exists t1|exists t]; rewrite in_app_iff; cbn [In]; auto.
          * intros (t1 & H1 & H2). apply in_app_or in H1 as [H1|[<-|[]]]; eauto. }
    eapply runs_weaken; [apply (G (table_keys objs) [] r []); [auto|apply rle_refl|reflexivity|constructor|]|].
    - intros e. cbn [In]. split; [intros []|]. intros (t & [] & _).
    - cbn beta. intros r' e' _ _ [N I0]. split; [exact N|]. intros i j. rewrite I0, chain_news. reflexivity.
  Qed.
End Rec.

Lemma covers_tables rules i j p :
  covers rules i j p <-> exists t, In t (table_keys (objects rules)) /\ coversO (with_table t (objects rules)) i j p.
Proof.
  split.
  - intros (R & S0 & H1 & H2 & H3 & H4 & H5 & H6). exists (table (rcore R)). apply objects_in in H1, H2.
    split; [apply table_keys_in; exists (i, R); auto|]. exists R, S0. split; [now apply with_table_in|]. split; [now apply with_table_in|]. auto.
  - intros (t & _ & R & S0 & H1 & H2 & H3 & H4 & H5). apply with_table_in in H1 as [H1 E1], H2 as [H2 E2]. cbn [snd] in E1, E2.
    apply objects_in in H1, H2. exists R, S0. split; [auto|]. split; [auto|]. split; [congruence|]. auto.
Qed.
Lemma fold_eadd d : forall e, NoDup e -> NoDup (fold_left eadd d e) /\ forall x, In x (fold_left eadd d e) <-> In x d \/ In x e.
Proof.
  induction d as [|k d IH]; intros e ND; cbn [fold_left In]; [split; [exact ND|intuition auto]|].
  destruct (IH (eadd e k) (eadd_nodup _ _ ND)) as [A B]. split; [exact A|]. intros x. rewrite B, eadd_in. intuition auto.
Qed.

Section Whole.
  Context (SHIFT one : Z) (Hs : 0 < SHIFT) (Hs2 : SHIFT mod 2 = 0) (one_nz : one <> 0).
  Lemma ind_ruleset_runs use_bdd r rules : reg_ok r -> rules <> [] ->
    (forall R, In R rules -> match_ok r (rmatch (rcore R))) -> (forall R, In R rules -> 0 <= table (rcore R)) ->
    (forall R t, In R rules -> goto_table (inst (rcore R)) = Some t -> table (rcore R) < t /\ egress_safe R /\ exists S, In S rules /\ table (rcore S) = t) ->
    (forall R, In R rules -> (forall S, In S rules -> table (rcore S) = table (rcore R) -> priority (rcore R) <= priority (rcore S)) -> egress_safe R) ->
    runs (ind_ruleset_deps SHIFT one use_bdd rules) r (fun _ e => NoDup e /\ forall i j, In (i, j) e <-> (exists p, covers rules i j p) \/ (exists p, goto_chain rules i j p)).
  Proof.
    intros Hr Hne Hm H0 Hg Hlow. set (objs := objects rules).
    assert (Hm' : forall x, In x objs -> match_ok r (rmatch (rcore (snd x)))) by (intros x Hx; apply Hm; now apply objects_rule).
    unfold ind_ruleset_deps. fold objs. eapply runs_bind with (post := fun _ _ => True).
    { destruct use_bdd; [|apply runs_ret; auto]. destruct (attach_all_ok SHIFT one Hs Hs2 one_nz r objs Hm') as (ns & En & _).
      apply runs_lift with (a := ns); [|auto|exact Logic.I]. unfold attach. destruct objs eqn:Eo; [|exact En].
      unfold objs, objects in Eo. destruct rules; [congruence|discriminate]. }
    intros r1 ? R1 L1 _. eapply runs_bind; [apply (goto_edges_runs rules r Hm H0 Hg r1); auto|]. cbn beta. fold objs. intros r2 e2 R2 L2 [N2 I2].
    assert (G : forall todo done r3 e3, reg_ok r3 -> rle r r3 -> done ++ todo = table_keys objs -> NoDup e3 ->
      (forall i j, In (i, j) e3 <-> In (i, j) e2 \/ exists t p, In t done /\ coversO (with_table t objs) i j p) ->
      runs (sfold (fun e t =>
        sdo d <- (if use_bdd then ind_table_deps_bdd SHIFT one (with_table t objs) else ind_table_deps (with_table t objs));
        sret (fold_left eadd d e)) todo e3) r3 (fun _ e' => NoDup e' /\ forall i j, In (i, j) e' <-> In (i, j) e2 \/ exists t p, In t (table_keys objs) /\ coversO (with_table t objs) i j p)).
    { induction todo as [|t todo IH]; intros done r3 e3 R3 L3 E ND Inv; cbn [sfold].
      - rewrite app_nil_r in E. subst done. apply runs_ret; auto.
      - assert (Ht : In t (table_keys objs)) by (rewrite <- E; apply in_elt). apply table_keys_in in Ht as (x & Hx & Et).
        assert (TO : table_ok r3 (with_table t objs)).
        { split; [|split; [|split; [|split]]].
          + intros X. assert (Y : In x (with_table t objs)) by (now apply with_table_in). rewrite X in Y. destruct Y.
          + apply sorted_filter, objects_sorted.
          + intros y Hy. apply with_table_in in Hy as [Hy _]. eapply match_ok_mono; [exact L3|]. auto.
          + intros y z Hy Hz. apply with_table_in in Hy as [_ Hy], Hz as [_ Hz]. congruence.
          + intros y [Hy Hl]. apply with_table_in in Hy as [Hy Ey]. apply Hlow; [now apply objects_rule|].
            intros S0 HS Es. apply rule_object in HS as [k HS]. apply (Hl (k, S0)). apply with_table_in. split; [exact HS|]. cbn [snd]. congruence. }
        destruct (ind_table_runs SHIFT one Hs Hs2 one_nz r3 _ R3 TO) as [RA RB].
        eapply runs_bind with (post := fun _ e' => NoDup e' /\ forall i j, In (i, j) e' <-> (exists p, coversO (with_table t objs) i j p) \/ In (i, j) e3).
        + eapply runs_bind with (post := fun _ d => NoDup d /\ forall i j, In (i, j) d <-> exists p, coversO (with_table t objs) i j p); [destruct use_bdd; assumption|].
          cbn beta. intros r4 d R4 L4 [Nd Id]. apply runs_ret; [auto|]. destruct (fold_eadd d e3 ND) as [A B]. split; [exact A|]. intros i j. rewrite B, Id. reflexivity.
        + cbn beta. intros r4 e4 R4 L4 [N4 I4]. apply (IH (done ++ [t])); [auto|eapply rle_trans; eauto|now rewrite <- app_assoc|exact N4|].
          intros i j. rewrite I4, Inv. split.
          * intros [(p & H)|[H|(t1 & p & H1 & H2)]]; [right; exists t, p|auto|right; exists t1, p]; rewrite in_app_iff; cbn [In]; auto.
          * intros [H|(t1 & p & H1 & H2)]; [auto|]. apply in_app_or in H1 as [H1|[<-|[]]]; [right; right; eauto|left; eauto]. }
    eapply runs_weaken; [apply (G (table_keys objs) [] r2 e2); [auto|eapply rle_trans; eauto|reflexivity|exact N2|]|].
    - intros i j. split; [auto|]. intros [H|(t & p & [] & _)]; exact H.
    - cbn beta. intros r5 e5 _ _ [N5 I5]. split; [exact N5|]. intros i j. rewrite I5, I2. split.
      + intros [H|(t & p & H1 & H2)]; [auto|]. left. exists p. apply covers_tables. eauto.
      + intros [(p & H)|H]; [|auto]. right. apply covers_tables in H as (t & H1 & H2). eauto.
  Qed.
End Whole.
