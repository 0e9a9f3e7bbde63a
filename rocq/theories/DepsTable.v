(** Dependencies within one table: the offline builders, direct and indirect. *)
From Coq Require Import Lia Permutation Sorted.
From Coq Require Import ZifyBool ZifyNat ZifyN.
From Verif Require Import SpecBdd WildcardProofs MatchProofs HSProofs BddProofs CuddProofs BddApi SpecPipeline MergeProofs Deps SpecDeps DepsProofs.
Local Open Scope string_scope.
Local Open Scope list_scope.
Local Open Scope Z_scope.
Local Opaque NB WC_FULLWC layout oxm_fields registry_init.

(** the rules of a list of objects; ids increase *)
Definition ids_sorted (ns : list node) : Prop := StronglySorted (fun a b => (nid a < nid b)%nat) ns.
Lemma ids_nodup ns : ids_sorted ns -> NoDup (map nid ns).
Proof.
  induction 1 as [|x l S0 IH F]; cbn [map]; constructor; auto. intros H. apply in_map_iff in H as (y & E & Hy).
  rewrite Forall_forall in F. specialize (F y Hy). lia.
Qed.
Lemma ids_filter q ns : ids_sorted ns -> ids_sorted (filter q ns).
Proof.
  induction 1 as [|x l S0 IH F]; cbn [filter]; [constructor|]. destruct (q x); [|exact IH]. constructor; [exact IH|].
  apply Forall_forall. intros y Hy. apply filter_In in Hy as [Hy _]. rewrite Forall_forall in F. auto.
Qed.
Lemma ids_split ns l1 x l2 : ids_sorted ns -> ns = l1 ++ x :: l2 ->
  (forall y, In y l1 -> (nid y < nid x)%nat) /\ (forall y, In y l2 -> (nid x < nid y)%nat).
Proof.
  intros H ->. induction l1 as [|a l1 IH]; cbn [app] in H; inversion H as [|? ? S0 F]; subst; rewrite Forall_forall in F.
  - split; [intros y []|auto].
  - destruct (IH S0) as [A B]. split; [|auto]. intros y [<-|Hy]; [|auto]. apply F. apply in_elt.
Qed.

Definition first_by (f : node -> bool) (ns : list node) (q : node -> bool) (x : node) : Prop :=
  In x ns /\ q x = true /\ f x = true /\
  forall y, In y ns -> q y = true -> f y = true -> nprio y < nprio x \/ (nprio y = nprio x /\ (nid x <= nid y)%nat).
Lemma find_first f q ns x : ids_sorted ns -> (find f (sort_by prio_ge (filter q ns)) = Some x <-> first_by f ns q x).
Proof.
  intros Hi. rewrite (find_sort prio_ge prio_ge_total prio_ge_trans). split.
  - intros (l1 & l2 & E & Qx & Fx & H1 & H2). destruct (ids_split _ _ _ _ Hi E) as [I1 I2].
    split; [rewrite E; apply in_elt|]. split; [exact Qx|]. split; [exact Fx|].
    intros y Hy Qy Oy. rewrite E in Hy. apply in_app_or in Hy as [Hy|[<-|Hy]].
    + specialize (H1 y Hy Qy Oy). unfold prio_ge in H1. lia.
    + right. lia.
    + specialize (H2 y Hy Qy Oy). specialize (I2 y Hy). unfold prio_ge in H2. lia.
  - intros (Hx & Qx & Ox & H). apply in_split in Hx as (l1 & l2 & E). exists l1, l2. destruct (ids_split _ _ _ _ Hi E) as [I1 I2].
    split; [exact E|]. split; [exact Qx|]. split; [exact Ox|].
    split; intros y Hy Qy Oy; (destruct (H y) as [X|X]; [rewrite E; apply in_or_app; cbn [In]; auto|auto|auto| |]).
    + unfold prio_ge. lia. + specialize (I1 y Hy). lia. + unfold prio_ge. lia. + unfold prio_ge. lia.
Qed.
Definition first_of (ns : list node) (q : node -> bool) (p : packet) (x : node) : Prop :=
  In x ns /\ q x = true /\ on (nbdd x) p /\
  forall y, In y ns -> q y = true -> on (nbdd y) p -> nprio y < nprio x \/ (nprio y = nprio x /\ (nid x <= nid y)%nat).
Lemma hit_sorted q ns p x : ids_sorted ns -> (hit (sort_by prio_ge (filter q ns)) p = Some x <-> first_of ns q p x).
Proof.
  intros Hi. unfold hit. rewrite (find_first (onb p) q ns x Hi). unfold first_by, first_of. rewrite onb_on.
  split; intros (A & B & C & D); (split; [exact A|split; [exact B|split; [exact C|]]]); intros y Hy Qy Oy; apply D; auto; now apply onb_on.
Qed.
Lemma max_exists {A} (f : A -> Z) l : l <> [] -> exists x, In x l /\ forall y, In y l -> f y <= f x.
Proof.
  induction l as [|a l IH]; [congruence|]. intros _. destruct l as [|b l].
  - exists a. split; [now left|]. intros y [<-|[]]. lia.
  - destruct IH as (x & Hx & H); [discriminate|]. destruct (Z_le_gt_dec (f a) (f x)).
    + exists x. split; [now right|]. intros y [<-|Hy]; [lia|auto].
    + exists a. split; [now left|]. intros y [<-|Hy]; [lia|]. specialize (H y Hy). lia.
Qed.

(** ** One rule *)
Lemma record_fold R l : forall s, NoDup (map fst l) -> NoDup (map fst (fst s)) ->
  let s' := fold_left (record_bdd R) l s in
  NoDup (map fst (fst s')) /\
  (forall i j b, eget (fst s') (i, j) = Some b <-> (i = R /\ In (j, b) l) \/ (eget (fst s) (i, j) = Some b /\ ~ (i = R /\ In j (map fst l)))) /\
  (forall c j, In c (pget (snd s') j) <-> (c = R /\ In j (map fst l)) \/ In c (pget (snd s) j)).
Proof.
  induction l as [|[k v] l IH]; intros s ND NK; cbn [fold_left].
  - cbn [map In]. split; [exact NK|]. split; intros; intuition auto.
  - cbn [map fst] in ND. inversion ND as [|? ? Hk ND']; subst. specialize (IH (record_bdd R s (k, v)) ND').
    destruct IH as (A & B & C); [unfold record_bdd; cbn [fst snd]; now apply eset_nodup|].
    split; [exact A|]. split.
    + intros i j b. rewrite B. unfold record_bdd. cbn [fst snd map In]. rewrite eget_set.
      destruct (edge_eqb_spec (R, k) (i, j)) as [E|N].
      * injection E as <- <-. split.
        -- intros [[_ H]|[[= <-] _]]; auto.
        -- intros [[_ [[= <-]|H]]|[_ H]]; [|left; auto|].
           ++ right. split; [reflexivity|]. intros [_ X]. contradiction.
           ++ elim H. auto.
      * split.
        -- intros [[-> H]|[H1 H2]]; [left; auto|]. right. split; [auto|]. intros [-> [->|X]]; [congruence|]. apply H2. auto.
        -- intros [[-> [[= -> ->]|H]]|[H1 H2]]; [congruence|left; auto|]. right. split; [auto|]. intros [-> X]. apply H2. auto.
    + intros c j. rewrite C. unfold record_bdd. cbn [fst snd map In]. rewrite padd_in. intuition auto.
Qed.

Section Table.
  Context (SHIFT one : Z) (Hs : 0 < SHIFT) (Hs2 : SHIFT mod 2 = 0) (one_nz : one <> 0).

  Definition egress_safe (R : rule) : Prop := inst_ok (inst (rcore R)) /\ plain_acts (orig_order (apply_actions (inst (rcore R)))).
  Lemma egress_wc_runs r n : reg_ok r -> match_ok r (nmatch n) -> egress_safe (nrule n) ->
    runs (egress_wc n) r (fun _ wc => wc_ok wc /\ forall p, accepts wc p <-> exists q, rule_accepts (nrule n) q /\ forall b, p b = inst_header (ninst n) q b).
  Proof.
    intros Hr Hm [Hi Hp]. unfold egress_wc, get_goto_egress.
    eapply runs_bind with (post := fun r1 g => exists e, g = eg_sim e /\ egress_ok r1 (nmatch n) (rinst (ninst n)) e).
    - eapply runs_bind; [apply egress_runs; eauto|]. cbn beta. intros r1 e R1 L1 H. apply runs_ret; [auto|]. eauto.
    - cbn beta. intros r1 g R1 L1 (e & -> & H). destruct (match_wc_ok _ _ (eo_sim _ _ _ _ H)) as (w & E & W & _ & A).
      apply runs_lift with (a := w); [exact E|auto|]. split; [exact W|]. intros p. rewrite A.
      assert (Bit := eo_bit _ _ _ _ H). rewrite (accepts_cbit _ _ (proj1 (eo_sim _ _ _ _ H))). split.
      + intros Hg. set (m := nmatch n) in *. exists (fun k => match cbit m k with Some c => c | None => p k end). split.
        * unfold rule_accepts. apply (accepts_cbit _ _ (proj1 Hm)). intros i c Hc. fold m in Hc. now rewrite Hc.
        * intros b. rewrite inst_header_rw. unfold apply_rw. specialize (Hg b). rewrite Bit in Hg. fold m in Hg.
          destruct (rinst (ninst n) b) as [c|]; cbn [ov] in Hg; [now apply Hg|]. destruct (cbit m b) as [c|]; [now apply Hg|reflexivity].
      + intros (q & Hq & E2) i c Hc. unfold rule_accepts in Hq. rewrite E2, inst_header_rw. unfold apply_rw. rewrite Bit in Hc.
        destruct (rinst (ninst n) i) as [c'|]; cbn [ov] in Hc; [now injection Hc|].
        now apply (accepts_cbit _ _ (proj1 Hm)) with (i := i) (b := c) in Hq.
  Qed.

  (** in-table parents: the loop starts from the rule's own packets *)
  Lemma add_parents_runs r R P s : reg_ok r -> match_ok r (nmatch R) -> (P = [] -> egress_safe (nrule R)) ->
    (forall x, In x P -> ntable x = ntable R) ->
    runs (add_parents_bdd SHIFT one R P s) r (fun _ s' => s' = fold_left (record_bdd (nid R)) (parents_bdd (nbdd R) (sort_by prio_ge P)) s).
  Proof.
    intros Hr Hm He Ht. unfold add_parents_bdd, start_bdd. destruct P as [|x P].
    - cbn [same_table]. eapply runs_bind with (post := fun _ _ => True); [eapply runs_bind; [apply egress_wc_runs; auto|]|].
      + intros r1 w R1 L1 _. apply runs_ret; [auto|]. exact Logic.I.
      + intros r1 b R1 L1 _. apply runs_ret; [auto|]. reflexivity.
    - assert (E : same_table R (x :: P) = true) by (cbn [same_table]; apply Z.eqb_eq; symmetry; apply Ht; now left).
      rewrite E. eapply runs_bind with (post := fun _ b => b = nbdd R); [apply runs_ret; auto|]. cbn beta.
      intros r1 b R1 L1 ->. apply runs_ret; auto.
  Qed.

  Definition objs_sorted (objs : list (nat * rule)) : Prop := StronglySorted (fun a b => (fst a < fst b)%nat) objs.
  Lemma objs_ids objs ns : map (fun n => (nid n, nrule n)) ns = objs -> objs_sorted objs -> ids_sorted ns.
  Proof.
    intros <-. unfold objs_sorted, ids_sorted. induction ns as [|x l IH]; cbn [map]; intros H; [constructor|].
    inversion H as [|? ? S0 F]; subst. constructor; [auto|]. rewrite Forall_map in F. exact F.
  Qed.
  Definition bottom (objs : list (nat * rule)) (x : nat * rule) : Prop :=
    In x objs /\ forall y, In y objs -> priority (rcore (snd x)) <= priority (rcore (snd y)).
  Definition table_ok (r : registry) (objs : list (nat * rule)) : Prop :=
    objs <> [] /\ objs_sorted objs /\ (forall x, In x objs -> match_ok r (rmatch (rcore (snd x)))) /\
    (forall x y, In x objs -> In y objs -> table (rcore (snd x)) = table (rcore (snd y))) /\
    (forall x, bottom objs x -> egress_safe (snd x)).
  (** [fallsO]: [falls] over a list of objects of one table *)
  Definition fallsO (objs : list (nat * rule)) (i j : nat) (p : packet) : Prop :=
    exists R S, In (i, R) objs /\ In (j, S) objs /\ priority (rcore S) < priority (rcore R) /\ rule_accepts R p /\ rule_accepts S p /\
    forall k T, In (k, T) objs -> priority (rcore T) < priority (rcore R) -> rule_accepts T p ->
      priority (rcore T) < priority (rcore S) \/ (priority (rcore T) = priority (rcore S) /\ (j <= k)%nat).

  Lemma node_in_obj ns n : In n ns -> In (nid n, nrule n) (map (fun n => (nid n, nrule n)) ns).
  Proof. intros H. apply in_map_iff. eauto. Qed.
  Lemma parents_table ns R : (forall x y, In x ns -> In y ns -> ntable x = ntable y) -> In R ns ->
    potential_parents ns R = filter (fun x => nprio x <? nprio R) ns.
  Proof.
    intros H HR. unfold potential_parents. apply filter_ext_in. intros x Hx. rewrite (H x R Hx HR), Z.ltb_irrefl. apply orb_false_r.
  Qed.

  Lemma table_entries ns R : ids_sorted ns -> Forall (node_ok one) ns -> (forall x y, In x ns -> In y ns -> ntable x = ntable y) -> In R ns ->
    let l := parents_bdd (nbdd R) (sort_by prio_ge (potential_parents ns R)) in
    NoDup (map fst l) /\
    (forall j b, In (j, b) l -> mask one b /\ (exists p, on b p) /\
       forall p, on b p <-> fallsO (map (fun n => (nid n, nrule n)) ns) (nid R) j p) /\
    (forall j p, fallsO (map (fun n => (nid n, nrule n)) ns) (nid R) j p -> exists b, In (j, b) l).
  Proof.
    intros Hi F HT HR l. rewrite Forall_forall in F. assert (ND := ids_nodup _ Hi).
    assert (Pp := parents_table ns R HT HR).
    assert (OKs : Forall (node_ok one) (sort_by prio_ge (potential_parents ns R))).
    { apply Forall_forall. intros x Hx. apply (Permutation_in _ (sort_by_perm _ _)) in Hx. rewrite Pp in Hx. apply filter_In in Hx as [Hx _]. auto. }
    assert (NDs : NoDup (map nid (sort_by prio_ge (potential_parents ns R)))).
    { eapply Permutation_NoDup; [apply Permutation_sym, Permutation_map, sort_by_perm|]. rewrite Pp. now apply ids_nodup, ids_filter. }
    destruct (F R HR) as [MR AR].
    destruct (parents_bdd_spec one one_nz _ (nbdd R) MR OKs NDs) as [S1 S2].
    assert (Key : forall p j, (on (nbdd R) p /\ exists n, nid n = j /\ hit (sort_by prio_ge (potential_parents ns R)) p = Some n) <->
      fallsO (map (fun n => (nid n, nrule n)) ns) (nid R) j p).
    { intros p j. split.
      - intros (Hp & n & <- & Hn). rewrite Pp in Hn. apply hit_sorted in Hn as (Hn & Qn & On & Mx); [|exact Hi].
        exists (nrule R), (nrule n). split; [now apply node_in_obj|]. split; [now apply node_in_obj|].
        split; [lia|]. split; [now apply AR|]. split; [now apply (F n Hn)|].
        intros k T HTk HP HA. apply in_map_iff in HTk as (y & [= <- <-] & Hy). apply Mx; [auto|lia|now apply (F y Hy)].
      - intros (R' & S' & HR' & HS' & Hlt & AR' & AS' & Mx).
        apply in_map_iff in HR' as (x & [= Ex <-] & Hx). apply in_map_iff in HS' as (n & [= <- <-] & Hn).
        assert (x = R) by (apply (NoDup_map_eq nid ns ND); auto). subst x.
        split; [now apply AR|]. exists n. split; [reflexivity|]. rewrite Pp. apply hit_sorted; [exact Hi|].
        split; [auto|]. split; [lia|]. split; [now apply (F n Hn)|].
        intros y Hy Qy Oy. apply (Mx (nid y) (nrule y)); [now apply node_in_obj|lia|now apply (F y Hy)]. }
    split; [now apply parents_bdd_nodup|]. split.
    - intros j b H. destruct (S1 j b H) as (Mb & Ne & B). split; [exact Mb|]. split; [exact Ne|]. intros p. now rewrite B, Key.
    - intros j p H. apply Key in H as (Hp & n & <- & Hn). eapply S2; eauto.
  Qed.

  Lemma table_deps_runs r objs : reg_ok r -> table_ok r objs ->
    runs (table_deps_bdd SHIFT one objs) r (fun _ d => NoDup (map fst d) /\
      (forall i j b, In ((i, j), b) d -> mask one b /\ (exists p, on b p) /\ forall p, on b p <-> fallsO objs i j p) /\
      (forall i j p, fallsO objs i j p -> exists b, In ((i, j), b) d)).
  Proof.
    intros Hr (Hne & Hso & Hm & HT & Hb).
    destruct (attach_all_ok SHIFT one Hs Hs2 one_nz r objs Hm) as (ns & En & Mn & F).
    assert (Hi := objs_ids _ _ Mn Hso). assert (ND := ids_nodup _ Hi).
    assert (HTn : forall x y, In x ns -> In y ns -> ntable x = ntable y).
    { intros x y Hx Hy. apply node_in_obj in Hx. apply node_in_obj in Hy. rewrite Mn in Hx, Hy. exact (HT _ _ Hx Hy). }
    unfold table_deps_bdd. eapply runs_bind with (post := fun r' a => a = ns /\ rle r r').
    { apply runs_lift with (a := ns); [|auto|split; [reflexivity|apply rle_refl]]. unfold attach. destruct objs; [congruence|exact En]. }
    intros r1 ns' R1 L1 [-> _].
    eapply runs_bind with (post := fun _ s => NoDup (map fst (fst s)) /\ forall i j b, eget (fst s) (i, j) = Some b <->
      exists R, In R ns /\ nid R = i /\ In (j, b) (parents_bdd (nbdd R) (sort_by prio_ge (potential_parents ns R)))).
    - assert (G : forall todo done r0 s, reg_ok r0 -> rle r r0 -> done ++ todo = ns -> NoDup (map fst (fst s)) ->
        (forall i j b, eget (fst s) (i, j) = Some b <-> exists R, In R done /\ nid R = i /\ In (j, b) (parents_bdd (nbdd R) (sort_by prio_ge (potential_parents ns R)))) ->
        runs (sfold (fun s R => add_parents_bdd SHIFT one R (potential_parents ns R) s) todo s) r0 (fun _ s' => NoDup (map fst (fst s')) /\ forall i j b, eget (fst s') (i, j) = Some b <->
          exists R, In R ns /\ nid R = i /\ In (j, b) (parents_bdd (nbdd R) (sort_by prio_ge (potential_parents ns R))))).
      { induction todo as [|R todo IH]; intros done r0 s R0 L0 E NK Inv; cbn [sfold].
        - rewrite app_nil_r in E. subst done. apply runs_ret; auto.
        - assert (HR : In R ns) by (rewrite <- E; apply in_elt).
          destruct (table_entries ns R Hi F HTn HR) as (NDl & _ & _).
          eapply runs_bind; [apply add_parents_runs|].
          + auto.
          + eapply match_ok_mono; [exact L0|]. apply node_in_obj in HR. rewrite Mn in HR. exact (Hm _ HR).
          + intros Pe. assert (HR' := HR). apply node_in_obj in HR'. rewrite Mn in HR'. apply (Hb (nid R, nrule R)). split; [exact HR'|].
            intros y Hy. rewrite <- Mn in Hy. apply in_map_iff in Hy as (x & <- & Hx). cbn [snd].
            destruct (Z_lt_le_dec (nprio x) (nprio R)) as [Lt|]; [|auto]. exfalso.
            assert (X : In x (potential_parents ns R)) by (apply filter_In; split; [auto|]; lia). rewrite Pe in X. destruct X.
          + intros x Hx. rewrite (parents_table ns R HTn HR) in Hx. apply filter_In in Hx as [Hx _]. now apply HTn.
          + cbn beta. intros r2 s2 R2 L2 ->. destruct (record_fold (nid R) _ s NDl NK) as (A & B & _).
            apply (IH (done ++ [R])); [auto|eapply rle_trans; eauto|now rewrite <- app_assoc|exact A|].
            intros i j b. rewrite B, Inv. split.
            * intros [[-> H]|[(R' & H1 & H2 & H3) _]]; [exists R|exists R']; rewrite in_app_iff; cbn [In]; auto.
            * intros (R' & H1 & H2 & H3). apply in_app_or in H1 as [H1|[<-|[]]]; [|left; auto]. right. split; [eauto|].
              intros [-> _]. assert (R' = R); [|subst R'].
              { apply (NoDup_map_eq nid ns ND); auto. rewrite <- E. apply in_or_app. now left. }
              rewrite <- E in ND. rewrite map_app in ND. cbn [map] in ND. apply NoDup_remove_2 in ND. apply ND, in_or_app. left. now apply in_map. }
      apply (G ns [] r1 ([], [])); auto; [constructor|]. intros i j b. cbn. split; [discriminate|]. intros (R & [] & _).
    - intros r2 s R2 L2 [NK Inv]. apply runs_ret; [auto|]. split; [exact NK|]. rewrite <- Mn. split.
      + intros i j b H. apply (eget_in _ _ _ NK) in H. apply Inv in H as (R & HR & <- & H).
        destruct (table_entries ns R Hi F HTn HR) as (_ & A & _). auto.
      + intros i j p H. assert (X := H). destruct X as (R' & _ & HR' & _). apply in_map_iff in HR' as (R & [= <- <-] & HR).
        destruct (table_entries ns R Hi F HTn HR) as (_ & _ & A). destruct (A j p H) as (b & Hb'). exists b. apply (eget_in _ _ _ NK). apply Inv. eauto.
  Qed.

  (** ** The headerspace variant *)
  Definition wcb (p : packet) (n : node) : bool := match match_wc (nmatch n) with Ok w => acceptsb w p | Err _ => false end.
  Definition wnode_ok (n : node) : Prop := exists w, match_wc (nmatch n) = Ok w /\ wc_ok w /\ forall p, accepts w p <-> rule_accepts (nrule n) p.
  Lemma wcb_spec p n : wnode_ok n -> (wcb p n = true <-> rule_accepts (nrule n) p).
  Proof. intros (w & E & W & A). unfold wcb. rewrite E, acceptsb_spec. apply A. Qed.

  Lemma parents_hs_spec P : forall packets, hs_ok packets -> Forall wnode_ok P -> NoDup (map nid P) ->
    exists l, parents_hs packets P = Ok l /\ NoDup (map fst l) /\ (forall j, In j (map fst l) -> In j (map nid P)) /\
    (forall j h, In (j, h) l -> forall p, hs_accepts h p <-> hs_accepts packets p /\ exists n, nid n = j /\ find (wcb p) P = Some n) /\
    (forall p n, hs_accepts packets p -> find (wcb p) P = Some n -> exists h, In (nid n, h) l).
  Proof.
    induction P as [|R t IH]; intros packets Hok F ND; cbn [parents_hs].
    - exists []. split; [reflexivity|]. split; [constructor|]. split; [intros j []|]. split; [intros j h []|discriminate].
    - inversion F as [|? ? OR Ft]; subst. inversion ND as [|? ? HR NDt]; subst. assert (Wb := fun p => wcb_spec p R OR). destruct OR as (w & E & W & A).
      rewrite E. cbn [rbind].
      set (i := hs_clean_up (hs_intersect packets (add_hs hs_empty w))).
      assert (Hi : hs_ok (hs_intersect packets (add_hs hs_empty w))).
      { apply hs_ok_intersect; [auto|]. apply hs_ok_add; [intros x ds []|auto]. }
      assert (Ai : forall p, hs_accepts i p <-> hs_accepts packets p /\ rule_accepts (nrule R) p).
      { intros p. unfold i. rewrite hs_clean_up_accepts, hs_intersect_accepts, hs_add_accepts, A by auto. split; [|tauto].
        intros [H1 [H2|H2]]; [|auto]. destruct H2 as (x & ds & [] & _). }
      destruct (hs_is_empty i) eqn:Ei.
      + assert (Ni : forall p, ~ hs_accepts i p). { destruct i; [|discriminate]. intros p (x & ds & [] & _). }
        destruct (IH packets Hok Ft NDt) as (l & El & NDl & Il & Sl & Cl). exists l. split; [exact El|]. split; [exact NDl|].
        split; [cbn [map In]; auto|]. split.
        * intros j h Hj p. rewrite (Sl j h Hj p). cbn [find]. split; intros (H1 & n & H2 & H3); (split; [auto|]); exists n; (split; [auto|]).
          -- destruct (wcb p R) eqn:X; [|auto]. apply Wb in X. elim (Ni p). now apply Ai.
          -- destruct (wcb p R) eqn:X; [|auto]. apply Wb in X. elim (Ni p). now apply Ai.
        * intros p n H1 H2. cbn [find] in H2. destruct (wcb p R) eqn:X; [|eauto]. apply Wb in X. elim (Ni p). now apply Ai.
      + destruct (IH (hs_diff packets w) (hs_ok_diff _ _ Hok) Ft NDt) as (l & El & NDl & Il & Sl & Cl). rewrite El. cbn [rbind].
        exists ((nid R, i) :: l). split; [reflexivity|]. split; [cbn [map fst]; constructor; auto|].
        split; [cbn [map In fst]; intros j [<-|Hj]; auto|]. split.
        * intros j h [[= <- <-]|Hj] p; cbn [find].
          -- rewrite Ai. split.
             ++ intros [H1 H2]. split; [auto|]. exists R. split; [auto|]. apply Wb in H2. now rewrite H2.
             ++ intros (H1 & n & H2 & H3). split; [auto|]. apply Wb. destruct (wcb p R); [reflexivity|].
                apply find_some in H3 as [H3 _]. elim HR. rewrite <- H2. now apply in_map.
          -- rewrite (Sl j h Hj p), hs_diff_accepts, A. split.
             ++ intros ((H1 & H1') & n & H2 & H3). split; [auto|]. exists n. split; [auto|]. destruct (wcb p R) eqn:X; [|auto]. apply Wb in X. contradiction.
             ++ intros (H1 & n & H2 & H3). destruct (wcb p R) eqn:X.
                ** injection H3 as <-. elim HR. rewrite H2. apply Il. apply (in_map fst) in Hj. exact Hj.
                ** split; [split; [auto|]|eauto]. intros Y. apply Wb in Y. congruence.
        * intros p n H1 H2. cbn [find] in H2. destruct (wcb p R) eqn:X.
          -- injection H2 as <-. exists i. now left.
          -- destruct (Cl p n) as (h & Hh); [|auto|exists h; now right]. apply hs_diff_accepts. split; [auto|]. rewrite A, <- Wb. congruence.
  Qed.

  Lemma bare_ids objs : objs_sorted objs -> ids_sorted (bare objs) /\ map (fun n => (nid n, nrule n)) (bare objs) = objs.
  Proof.
    intros H. assert (M : map (fun n => (nid n, nrule n)) (bare objs) = objs).
    { unfold bare. rewrite map_map. rewrite <- (map_id objs) at 2. apply map_ext. intros [a b]. reflexivity. }
    split; [|exact M]. eapply objs_ids; eauto.
  Qed.
  Lemma hs_fold R l : forall s : list (edge * headerspace), NoDup (map fst l) -> NoDup (map fst s) ->
    let s' := fold_left (fun s x => eset s (R, fst x) (snd x)) l s in
    NoDup (map fst s') /\
    (forall i j b, eget s' (i, j) = Some b <-> (i = R /\ In (j, b) l) \/ (eget s (i, j) = Some b /\ ~ (i = R /\ In j (map fst l)))).
  Proof.
    induction l as [|[k v] l IH]; intros s ND NK; cbn [fold_left].
    - cbn [map In]. split; [exact NK|]. intros; intuition auto.
    - cbn [map fst] in ND. inversion ND as [|? ? Hk ND']; subst. specialize (IH (eset s (R, k) v) ND').
      destruct IH as (A & B); [now apply eset_nodup|]. cbn [fst snd]. split; [exact A|].
      intros i j b. rewrite B. cbn [fst snd map In]. rewrite eget_set.
      destruct (edge_eqb_spec (R, k) (i, j)) as [E|N].
      * injection E as <- <-. split.
        -- intros [[_ H]|[[= <-] _]]; auto.
        -- intros [[_ [[= <-]|H]]|[_ H]]; [|left; auto|].
           ++ right. split; [reflexivity|]. intros [_ X]. contradiction.
           ++ elim H. auto.
      * split.
        -- intros [[-> H]|[H1 H2]]; [left; auto|]. right. split; [auto|]. intros [-> [->|X]]; [congruence|]. apply H2. auto.
        -- intros [[-> [[= -> ->]|H]]|[H1 H2]]; [congruence|left; auto|]. right. split; [auto|]. intros [-> X]. apply H2. auto.
  Qed.

  (** the entries of one rule, whatever the loop computes *)
  Definition hs_entries (ns : list node) (R : node) (l : list (nat * headerspace)) : Prop :=
    NoDup (map fst l) /\ (forall j, In j (map fst l) -> exists S, In S ns /\ nid S = j /\ nprio S < nprio R) /\
    (forall j h, In (j, h) l -> forall p, hs_accepts h p <-> fallsO (map (fun n => (nid n, nrule n)) ns) (nid R) j p) /\
    (forall j p, fallsO (map (fun n => (nid n, nrule n)) ns) (nid R) j p -> exists h, In (j, h) l).
  Lemma add_parents_hs_runs r ns R s : reg_ok r -> ids_sorted ns -> (forall x, In x ns -> match_ok r (nmatch x)) ->
    (forall x y, In x ns -> In y ns -> ntable x = ntable y) -> In R ns ->
    (potential_parents ns R = [] -> egress_safe (nrule R)) ->
    runs (add_parents_hs R (potential_parents ns R) s) r (fun _ s' => exists l, hs_entries ns R l /\ s' = fold_left (fun s x => eset s (nid R, fst x) (snd x)) l s).
  Proof.
    intros Hr Hi Hm HT HR He. assert (Pp := parents_table ns R HT HR). assert (ND := ids_nodup _ Hi).
    assert (Wn : forall x, In x ns -> wnode_ok x).
    { intros x Hx. destruct (match_wc_ok r _ (Hm x Hx)) as (w & E & W & _ & A). exists w. auto. }
    assert (Fs : Forall wnode_ok (sort_by prio_ge (potential_parents ns R))).
    { apply Forall_forall. intros x Hx. apply (Permutation_in _ (sort_by_perm _ _)) in Hx. apply filter_In in Hx as [Hx _]. auto. }
    assert (NDs : NoDup (map nid (sort_by prio_ge (potential_parents ns R)))).
    { eapply Permutation_NoDup; [apply Permutation_sym, Permutation_map, sort_by_perm|]. now apply ids_nodup, ids_filter. }
    unfold add_parents_hs, start_hs.
    eapply runs_bind with (post := fun _ h => hs_ok h /\ (potential_parents ns R <> [] -> forall p, hs_accepts h p <-> rule_accepts (nrule R) p)).
    - eapply runs_bind with (post := fun _ w => wc_ok w /\ (potential_parents ns R <> [] -> forall p, accepts w p <-> rule_accepts (nrule R) p)).
      + destruct (potential_parents ns R) as [|x P] eqn:EP.
        * cbn [same_table]. eapply runs_weaken; [apply egress_wc_runs; auto|]. cbn beta. intros r1 w R1 L1 [W _]. split; [auto|congruence].
        * assert (X : In x ns). { assert (X : In x (potential_parents ns R)) by (rewrite EP; now left). now apply filter_In in X. }
          cbn [same_table]. rewrite (HT R x HR X), Z.eqb_refl. destruct (Wn R HR) as (w & E & W & A).
          apply runs_lift with (a := w); auto.
      + intros r1 w R1 L1 [W A]. apply runs_ret; [auto|]. split; [apply hs_ok_add; [intros y ds []|auto]|].
        intros N p. rewrite hs_add_accepts, (A N p). split; [|auto]. intros [(y & ds & [] & _)|H]; auto.
    - intros r1 h R1 L1 [Hh Ah]. destruct (parents_hs_spec _ h Hh Fs NDs) as (l & El & NDl & Il & Sl & Cl).
      eapply runs_bind with (post := fun _ x => x = l); [apply runs_lift with (a := l); auto|]. intros r2 x R2 L2 ->.
      apply runs_ret; [auto|]. exists l. split; [|reflexivity].
      assert (Key : forall p j, (hs_accepts h p /\ exists n, nid n = j /\ find (wcb p) (sort_by prio_ge (potential_parents ns R)) = Some n) <->
        fallsO (map (fun n => (nid n, nrule n)) ns) (nid R) j p).
      { intros p j. split.
        - intros (Hp & n & <- & Hn).
          assert (NE : potential_parents ns R <> []).
          { intros X. rewrite X in Hn. discriminate. }
          rewrite Pp in Hn. apply find_first in Hn as (Hn & Qn & On & Mx); [|exact Hi].
          exists (nrule R), (nrule n). split; [now apply node_in_obj|]. split; [now apply node_in_obj|].
          split; [lia|]. split; [now apply Ah|]. split; [apply (wcb_spec p n); auto|].
          intros k T HTk HP HA. apply in_map_iff in HTk as (y & [= <- <-] & Hy). apply Mx; [auto|lia|apply wcb_spec; auto].
        - intros (R' & S' & HR' & HS' & Hlt & AR' & AS' & Mx).
          apply in_map_iff in HR' as (y & [= Ex <-] & Hx). apply in_map_iff in HS' as (n & [= <- <-] & Hn).
          assert (y = R) by (apply (NoDup_map_eq nid ns ND); auto). subst y.
          assert (NE : potential_parents ns R <> []).
          { intros X. assert (Y : In n (potential_parents ns R)) by (rewrite Pp; apply filter_In; split; [auto|lia]). rewrite X in Y. destruct Y. }
          split; [now apply Ah|]. exists n. split; [reflexivity|]. rewrite Pp. apply find_first; [exact Hi|].
          split; [auto|]. split; [lia|]. split; [apply wcb_spec; auto|].
          intros z Hz Qz Oz. apply (Mx (nid z) (nrule z)); [now apply node_in_obj|lia|apply wcb_spec; auto]. }
      split; [exact NDl|]. split; [|split].
      + intros j Hj. apply Il in Hj. apply in_map_iff in Hj as (S0 & E & HS). apply (Permutation_in _ (sort_by_perm _ _)) in HS.
        rewrite Pp in HS. apply filter_In in HS as [HS Q]. exists S0. split; [auto|]. split; [auto|lia].
      + intros j k Hj p. now rewrite (Sl j k Hj p), Key.
      + intros j p Hf. apply Key in Hf as (H1 & n & <- & H2). eauto.
  Qed.
  Lemma table_deps_hs_runs r objs : reg_ok r -> table_ok r objs ->
    runs (table_deps_hs objs) r (fun _ d => NoDup (map fst d) /\
      (forall i j h, In ((i, j), h) d -> (exists R S, In (i, R) objs /\ In (j, S) objs /\ priority (rcore S) < priority (rcore R)) /\ forall p, hs_accepts h p <-> fallsO objs i j p) /\
      (forall i j p, fallsO objs i j p -> exists h, In ((i, j), h) d)).
  Proof.
    intros Hr (Hne & Hso & Hm & HT & Hb). destruct (bare_ids objs Hso) as [Hi Mn]. set (ns := bare objs) in *. assert (ND := ids_nodup _ Hi).
    assert (Hmn : forall r', rle r r' -> forall x, In x ns -> match_ok r' (nmatch x)).
    { intros r' L x Hx. apply node_in_obj in Hx. rewrite Mn in Hx. eapply match_ok_mono; [exact L|exact (Hm _ Hx)]. }
    assert (HTn : forall x y, In x ns -> In y ns -> ntable x = ntable y).
    { intros x y Hx Hy. apply node_in_obj in Hx. apply node_in_obj in Hy. rewrite Mn in Hx, Hy. exact (HT _ _ Hx Hy). }
    assert (Hbn : forall R, In R ns -> potential_parents ns R = [] -> egress_safe (nrule R)).
    { intros R HR Pe. assert (HR' := HR). apply node_in_obj in HR'. rewrite Mn in HR'. apply (Hb (nid R, nrule R)). split; [exact HR'|].
      intros y Hy. rewrite <- Mn in Hy. apply in_map_iff in Hy as (x & <- & Hx). cbn [snd].
      destruct (Z_lt_le_dec (nprio x) (nprio R)) as [Lt|]; [|auto]. exfalso.
      assert (X : In x (potential_parents ns R)) by (apply filter_In; split; [auto|]; lia). rewrite Pe in X. destruct X. }
    unfold table_deps_hs. fold ns.
    assert (G : forall todo done r0 s, reg_ok r0 -> rle r r0 -> done ++ todo = ns -> NoDup (map fst s) ->
      (forall i j b, eget s (i, j) = Some b -> exists R l, In R done /\ nid R = i /\ hs_entries ns R l /\ In (j, b) l) ->
      (forall R, In R done -> exists l, hs_entries ns R l /\ forall j b, In (j, b) l -> eget s (nid R, j) = Some b) ->
      runs (sfold (fun s R => add_parents_hs R (potential_parents ns R) s) todo s) r0 (fun _ s' => NoDup (map fst s') /\
        (forall i j b, eget s' (i, j) = Some b -> exists R l, In R ns /\ nid R = i /\ hs_entries ns R l /\ In (j, b) l) /\
        (forall R, In R ns -> exists l, hs_entries ns R l /\ forall j b, In (j, b) l -> eget s' (nid R, j) = Some b))).
    { induction todo as [|R todo IH]; intros done r0 s R0 L0 E NK I1 I2; cbn [sfold].
      - rewrite app_nil_r in E. subst done. apply runs_ret; auto.
      - assert (HR : In R ns) by (rewrite <- E; apply in_elt).
        eapply runs_bind; [apply add_parents_hs_runs; auto|]. cbn beta. intros r2 s2 R2 L2 (l & Hl & ->).
        destruct (hs_fold (nid R) l s (proj1 Hl) NK) as (A & B).
        assert (Nd : forall R', In R' done -> nid R' <> nid R).
        { intros R' H1 H2. rewrite <- E, map_app in ND. cbn [map] in ND. apply NoDup_remove_2 in ND. apply ND, in_or_app. left. rewrite <- H2. now apply in_map. }
        apply (IH (done ++ [R])); [auto|eapply rle_trans; eauto|now rewrite <- app_assoc|exact A| |].
        + intros i j b H. apply B in H as [[-> H]|[H _]].
          * exists R, l. rewrite in_app_iff. cbn [In]. auto.
          * destruct (I1 i j b H) as (R' & l' & H1 & H2 & H3 & H4). exists R', l'. rewrite in_app_iff. auto.
        + intros R' HR'. apply in_app_or in HR' as [HR'|[<-|[]]].
          * destruct (I2 R' HR') as (l' & H1 & H2). exists l'. split; [auto|]. intros j b Hj. apply B. right. split; [auto|].
            intros [X _]. now apply (Nd R' HR').
          * exists l. split; [auto|]. intros j b Hj. apply B. auto. }
    eapply runs_weaken; [apply (G ns [] r []); auto using rle_refl|].
    - constructor. - discriminate. - intros R [].
    - cbn beta. intros r2 d R2 L2 (NK & I1 & I2). split; [exact NK|]. split.
      + intros i j h H. apply (eget_in _ _ _ NK) in H. apply I1 in H as (R & l & HR & <- & (_ & E1 & E2 & _) & H). rewrite <- Mn. split; [|now apply E2].
        apply (in_map fst) in H. cbn [fst] in H. apply E1 in H as (S0 & HS & <- & Lt). exists (nrule R), (nrule S0).
        split; [now apply node_in_obj|]. split; [now apply node_in_obj|exact Lt].
      + intros i j p H. rewrite <- Mn in H. assert (X := H). destruct X as (R' & _ & HR' & _). apply in_map_iff in HR' as (R & [= <- <-] & HR).
        destruct (I2 R HR) as (l & (_ & _ & _ & E3) & H2). destruct (E3 j p H) as (h & Hh). exists h. apply (eget_in _ _ _ NK). auto.
  Qed.

  (** ** The indirect builders *)
  Definition coversO (objs : list (nat * rule)) (i j : nat) (p : packet) : Prop :=
    exists R S, In (i, R) objs /\ In (j, S) objs /\ priority (rcore S) < priority (rcore R) /\ rule_accepts R p /\ rule_accepts S p.
  Lemma eadd_fold (f : node -> bool) R P : forall s : list edge,
    let s' := fold_left (fun s x => if f x then eadd s (R, nid x) else s) P s in
    (forall e, In e s' <-> In e s \/ exists x, In x P /\ f x = true /\ e = (R, nid x)) /\ (NoDup s -> NoDup s').
  Proof.
    induction P as [|x P IH]; intros s; cbn [fold_left].
    - split; [|auto]. intros e. split; [auto|]. intros [H|(y & [] & _)]; auto.
    - destruct (IH (if f x then eadd s (R, nid x) else s)) as [A B]. split.
      + intros e. rewrite A. cbn [In]. destruct (f x) eqn:E; [rewrite eadd_in|]; split.
        * intros [[->|H]|(y & H1 & H2 & H3)]; eauto 6.
        * intros [H|(y & [<-|H1] & H2 & H3)]; eauto 6.
        * intros [H|(y & H1 & H2 & H3)]; eauto 6.
        * intros [H|(y & [<-|H1] & H2 & H3)]; eauto 6. congruence.
      + intros H. apply B. destruct (f x); [now apply eadd_nodup|exact H].
  Qed.
  (** a fold whose step always succeeds and adds the edges of one rule *)
  Lemma ind_loop r objs ns (step : list edge -> node -> st (list edge)) :
    map (fun n => (nid n, nrule n)) ns = objs ->
    (forall r' R s, reg_ok r' -> rle r r' -> In R ns -> runs (step s R) r' (fun _ s' => (NoDup s -> NoDup s') /\
       forall e, In e s' <-> In e s \/ exists j p, e = (nid R, j) /\ exists S, In (j, S) objs /\ priority (rcore S) < nprio R /\ rule_accepts (nrule R) p /\ rule_accepts S p)) ->
    reg_ok r -> runs (sfold step ns []) r (fun _ s' => NoDup s' /\ forall i j, In (i, j) s' <-> exists p, coversO objs i j p).
  Proof.
    intros Mn Hstep Hr.
    assert (G : forall todo done r0 s, reg_ok r0 -> rle r r0 -> done ++ todo = ns -> NoDup s ->
      (forall i j, In (i, j) s <-> exists R p, In R done /\ nid R = i /\ exists S, In (j, S) objs /\ priority (rcore S) < nprio R /\ rule_accepts (nrule R) p /\ rule_accepts S p) ->
      runs (sfold step todo s) r0 (fun _ s' => NoDup s' /\ forall i j, In (i, j) s' <-> exists p, coversO objs i j p)).
    { induction todo as [|R todo IH]; intros done r0 s R0 L0 E ND Inv; cbn [sfold].
      - rewrite app_nil_r in E. subst done. apply runs_ret; [auto|]. split; [auto|]. intros i j. rewrite Inv. split.
        + intros (R & p & HR & <- & S0 & H). exists p, (nrule R), S0. rewrite <- Mn at 1. split; [now apply node_in_obj|exact H].
        + intros (p & R' & S0 & HR & H). rewrite <- Mn in HR. apply in_map_iff in HR as (R & [= <- <-] & HR). eauto 10.
      - assert (HR : In R ns) by (rewrite <- E; apply in_elt).
        eapply runs_bind; [apply Hstep; auto|]. cbn beta. intros r2 s2 R2 L2 [A B].
        apply (IH (done ++ [R])); [auto|eapply rle_trans; eauto|now rewrite <- app_assoc|auto|].
        intros i j. rewrite B, Inv. split.
        + intros [(R' & p & H1 & H2 & H3)|(j' & p & [= -> ->] & H)].
          * exists R', p. rewrite in_app_iff. auto.
          * exists R, p. rewrite in_app_iff. cbn [In]. auto.
        + intros (R' & p & H1 & H2 & H3). apply in_app_or in H1 as [H1|[<-|[]]]; [left; eauto|]. right. subst i. eauto. }
    apply (G ns [] r []); auto using rle_refl; [constructor|]. intros i j. split; [intros []|]. intros (R & p & [] & _).
  Qed.
  Lemma ind_wc_fold r R P w s : reg_ok r -> (forall x, In x P -> match_ok r (nmatch x)) ->
    runs (sfold (fun s Rj => sdo wj <- slift (match_wc (nmatch Rj)); sret (if wildcard_intersect w wj =? 0 then s else eadd s (R, nid Rj))) P s) r
      (fun _ s' => (NoDup s -> NoDup s') /\ forall e, In e s' <-> In e s \/ exists x p, In x P /\ e = (R, nid x) /\ accepts w p /\ rule_accepts (nrule x) p).
  Proof.
    revert r s. induction P as [|x P IH]; intros r s Hr Hm; cbn [sfold].
    - apply runs_ret; [auto|]. split; [auto|]. intros e. split; [auto|]. intros [H|(y & p & [] & _)]; auto.
    - destruct (match_wc_ok r _ (Hm x (or_introl eq_refl))) as (wj & E & W & _ & A).
      set (s1 := if wildcard_intersect w wj =? 0 then s else eadd s (R, nid x)).
      eapply runs_bind with (post := fun _ a => a = s1).
      { eapply runs_bind with (post := fun _ a => a = wj); [apply runs_lift with (a := wj); auto|]. intros r1 a R1 L1 ->. apply runs_ret; auto. }
      intros r1 a R1 L1 ->. eapply runs_weaken; [apply IH; [auto|]|].
      { intros y Hy. eapply match_ok_mono; [exact L1|]. apply Hm. now right. }
      cbn beta. intros r2 s2 R2 L2 [N B].
      assert (C : forall e, In e s1 <-> In e s \/ (e = (R, nid x) /\ exists p, accepts w p /\ rule_accepts (nrule x) p)).
      { intros e. unfold s1. destruct (Z.eqb_spec (wildcard_intersect w wj) 0) as [Z0|NZ].
        - apply wildcard_intersect_zero in Z0. split; [auto|]. intros [H|[_ (p & H1 & H2)]]; [auto|]. elim Z0. exists p. rewrite A. auto.
        - assert (Ex : exists p, accepts w p /\ rule_accepts (nrule x) p).
          { destruct (wildcard_intersect_cases w wj) as [[Hz E']|[_ E']]; [|congruence].
            destruct (zfree_nonempty _ Hz) as [p Hp]. apply accepts_land in Hp as [H1 H2]. exists p. split; [auto|]. now apply A. }
          rewrite eadd_in. split; [intros [->|H]; auto|intros [H|[-> _]]; auto]. }
      split.
      + intros H. apply N. unfold s1. destruct (_ =? 0); [auto|now apply eadd_nodup].
      + intros e. rewrite B, C. cbn [In]. split.
        * intros [[H|[-> (p & H)]]|(y & p & H1 & H2)]; eauto 8.
        * intros [H|(y & p & [<-|H1] & H2 & H3)]; eauto 8.
  Qed.

  Lemma ind_table_runs r objs : reg_ok r -> table_ok r objs ->
    runs (ind_table_deps objs) r (fun _ s => NoDup s /\ forall i j, In (i, j) s <-> exists p, coversO objs i j p) /\
    runs (ind_table_deps_bdd SHIFT one objs) r (fun _ s => NoDup s /\ forall i j, In (i, j) s <-> exists p, coversO objs i j p).
  Proof.
    intros Hr (Hne & Hso & Hm & HT & Hb).
    assert (Gen : forall ns, map (fun n => (nid n, nrule n)) ns = objs -> ids_sorted ns /\
      (forall x, In x ns -> match_ok r (nmatch x)) /\ (forall x y, In x ns -> In y ns -> ntable x = ntable y) /\
      (forall R, In R ns -> potential_parents ns R = [] -> egress_safe (nrule R))).
    { intros ns Mn. split; [eapply objs_ids; eauto|].
      assert (Hmn : forall x, In x ns -> match_ok r (nmatch x)). { intros x Hx. apply node_in_obj in Hx. rewrite Mn in Hx. exact (Hm _ Hx). }
      split; [exact Hmn|]. split.
      { intros x y Hx Hy. apply node_in_obj in Hx. apply node_in_obj in Hy. rewrite Mn in Hx, Hy. exact (HT _ _ Hx Hy). }
      intros R HR Pe. assert (HR' := HR). apply node_in_obj in HR'. rewrite Mn in HR'. apply (Hb (nid R, nrule R)). split; [exact HR'|].
      intros y Hy. rewrite <- Mn in Hy. apply in_map_iff in Hy as (x & <- & Hx). cbn [snd].
      destruct (Z_lt_le_dec (nprio x) (nprio R)) as [Lt|]; [|auto]. exfalso.
      assert (X : In x (potential_parents ns R)) by (apply filter_In; split; [auto|]; lia). rewrite Pe in X. destruct X. }
    split.
    - unfold ind_table_deps. destruct (bare_ids objs Hso) as [_ Mn]. destruct (Gen _ Mn) as (Hi & Hmn & HTn & Hbn).
      apply ind_loop; [exact Mn| |auto]. set (ns := bare objs) in *. intros r' R s R0 L0 HR. assert (Pp := parents_table ns R HTn HR).
      unfold ind_parents_hs. eapply runs_bind with (post := fun _ w => potential_parents ns R <> [] -> forall p, accepts w p <-> rule_accepts (nrule R) p).
      + unfold ind_start_wc. destruct (potential_parents ns R) as [|x P] eqn:EP.
        * cbn [same_table]. eapply runs_weaken; [apply egress_wc_runs; auto|cbn beta; congruence].
          eapply match_ok_mono; [exact L0|auto].
        * assert (X : In x ns). { assert (X : In x (potential_parents ns R)) by (rewrite EP; now left). now apply filter_In in X. }
          cbn [same_table]. rewrite (HTn R x HR X), Z.eqb_refl. destruct (match_wc_ok r _ (Hmn R HR)) as (w & E & W & _ & A).
          apply runs_lift with (a := w); auto.
      + intros r1 w R1 L1 A. eapply runs_weaken; [apply ind_wc_fold; [auto|]|].
        * intros x Hx. apply filter_In in Hx as [Hx _]. eapply match_ok_mono; [exact L1|]. eapply match_ok_mono; [exact L0|auto].
        * cbn beta. intros r2 s2 R2 L2 [N B]. split; [exact N|]. intros e. rewrite B. split.
          -- intros [H|(x & p & Hx & -> & H1 & H2)]; [auto|]. right. exists (nid x), p. split; [reflexivity|]. exists (nrule x).
             assert (NE : potential_parents ns R <> []) by (intros X; rewrite X in Hx; destruct Hx).
             rewrite Pp in Hx. apply filter_In in Hx as [Hx Q]. split; [rewrite <- Mn; now apply node_in_obj|]. split; [lia|]. split; [now apply A|auto].
          -- intros [H|(j & p & -> & S0 & HS & Lt & H1 & H2)]; [auto|]. right. rewrite <- Mn in HS. apply in_map_iff in HS as (x & [= <- <-] & Hx).
             assert (Hx' : In x (potential_parents ns R)) by (rewrite Pp; apply filter_In; split; [auto|lia]).
             exists x, p. split; [auto|]. split; [reflexivity|]. split; [|auto]. apply A; [|auto]. intros X. rewrite X in Hx'. destruct Hx'.
    - destruct (attach_all_ok SHIFT one Hs Hs2 one_nz r objs Hm) as (ns & En & Mn & F). destruct (Gen _ Mn) as (Hi & Hmn & HTn & Hbn).
      rewrite Forall_forall in F. unfold ind_table_deps_bdd. eapply runs_bind with (post := fun r' a => a = ns).
      { apply runs_lift with (a := ns); auto. unfold attach. destruct objs; [congruence|exact En]. }
      intros r1 ns' R1 L1 ->. apply ind_loop; [exact Mn| |auto]. intros r' R s R0 L0 HR. assert (Pp := parents_table ns R HTn HR).
      unfold ind_parents_bdd. eapply runs_bind with (post := fun _ b => potential_parents ns R <> [] -> b = nbdd R).
      + unfold start_bdd. destruct (potential_parents ns R) as [|x P] eqn:EP.
        * cbn [same_table]. eapply runs_bind; [apply egress_wc_runs; auto|].
          -- eapply match_ok_mono; [eapply rle_trans; [exact L1|exact L0]|auto].
          -- intros r2 w R2 L2 _. apply runs_ret; [auto|congruence].
        * assert (X : In x ns). { assert (X : In x (potential_parents ns R)) by (rewrite EP; now left). now apply filter_In in X. }
          cbn [same_table]. rewrite (HTn R x HR X), Z.eqb_refl. apply runs_ret; auto.
      + intros r2 b R2 L2 Hb'. apply runs_ret; [auto|].
        destruct (eadd_fold (fun x => cudd_bool (binter b (nbdd x))) (nid R) (potential_parents ns R) s) as [A B]. split; [exact B|].
        intros e. rewrite A. split.
        * intros [H|(x & Hx & H1 & ->)]; [auto|]. right.
          assert (NE : potential_parents ns R <> []) by (intros X; rewrite X in Hx; destruct Hx).
          rewrite (Hb' NE) in H1. rewrite Pp in Hx. apply filter_In in Hx as [Hx Q]. destruct (F R HR) as [MR AR]. destruct (F x Hx) as [Mx Ax].
          destruct (mask_inter one one_nz _ _ MR Mx) as [Mi Oi]. apply (cudd_bool_on _ (proj1 Mi)) in H1 as [p Hp]. apply Oi in Hp as [P1 P2].
          exists (nid x), p. split; [reflexivity|]. exists (nrule x). split; [rewrite <- Mn; now apply node_in_obj|]. split; [lia|].
          split; [now apply AR|now apply Ax].
        * intros [H|(j & p & -> & S0 & HS & Lt & H1 & H2)]; [auto|]. right. rewrite <- Mn in HS. apply in_map_iff in HS as (x & [= <- <-] & Hx).
          assert (Hx' : In x (potential_parents ns R)) by (rewrite Pp; apply filter_In; split; [auto|lia]).
          assert (NE : potential_parents ns R <> []) by (intros X; rewrite X in Hx'; destruct Hx').
          exists x. split; [auto|]. split; [|reflexivity]. rewrite (Hb' NE). destruct (F R HR) as [MR AR]. destruct (F x Hx) as [Mx Ax].
          destruct (mask_inter one one_nz _ _ MR Mx) as [Mi Oi]. apply (cudd_bool_on _ (proj1 Mi)). exists p. apply Oi. split; [now apply AR|now apply Ax].
  Qed.
End Table.

(** ** Objects of a ruleset *)
Lemma objects_from (rs : list rule) : forall k i R, In (i, R) (combine (seq k (List.length rs)) rs) <-> (k <= i)%nat /\ nth_error rs (i - k)%nat = Some R.
Proof.
  induction rs as [|x rs IH]; intros k i R; cbn [List.length seq combine In].
  - split; [intros []|]. intros [_ H]. destruct (i - k)%nat; discriminate.
  - rewrite IH. split.
    + intros [[= <- <-]|[H1 H2]]; [rewrite Nat.sub_diag; auto|]. split; [lia|]. replace (i - k)%nat with (S (i - S k)) by lia. exact H2.
    + intros [H1 H2]. destruct (Nat.eq_dec i k) as [->|N].
      * left. rewrite Nat.sub_diag in H2. injection H2 as ->. reflexivity.
      * right. split; [lia|]. replace (i - k)%nat with (S (i - S k)) in H2 by lia. exact H2.
Qed.
Lemma objects_in (rs : list rule) i R : In (i, R) (objects rs) <-> nth_error rs i = Some R.
Proof. unfold objects. rewrite objects_from, Nat.sub_0_r. intuition lia. Qed.
Lemma objects_sorted_from (rs : list rule) : forall k, objs_sorted (combine (seq k (List.length rs)) rs).
Proof.
  induction rs as [|x rs IH]; intros k; cbn [List.length seq combine]; [constructor|]. constructor; [apply IH|].
  apply Forall_forall. intros [i R] H. apply objects_from in H. cbn [fst]. lia.
Qed.
Lemma objects_sorted rs : objs_sorted (objects rs).
Proof. apply objects_sorted_from. Qed.
Lemma objects_rule rs x : In x (objects rs) -> In (snd x) rs.
Proof. destruct x as [i R]. rewrite objects_in. cbn [snd]. apply nth_error_In. Qed.
Lemma rule_object rs R : In R rs -> exists i, In (i, R) (objects rs).
Proof. intros H. apply In_nth_error in H as [i H]. exists i. now apply objects_in. Qed.

Definition lowest (rules : list rule) (R : rule) : Prop := In R rules /\ forall S, In S rules -> priority (rcore R) <= priority (rcore S).
(** what the builders need of a single table *)
Definition single_ok (r : registry) (rules : list rule) : Prop :=
  rules <> [] /\ (forall R, In R rules -> match_ok r (rmatch (rcore R))) /\ one_table rules /\
  (forall R, lowest rules R -> inst_ok (inst (rcore R)) /\ plain_acts (orig_order (apply_actions (inst (rcore R))))).
Lemma single_table_ok r rules : single_ok r rules -> table_ok r (objects rules).
Proof.
  intros (A & B & C & D). split; [destruct rules; [congruence|discriminate]|]. split; [apply objects_sorted|].
  split; [intros x Hx; apply B; now apply objects_rule|]. split; [intros x y Hx Hy; apply C; now apply objects_rule|].
  intros x [H1 H2]. apply D. split; [now apply objects_rule|]. intros S0 HS. apply rule_object in HS as [i HS]. exact (H2 _ HS).
Qed.
Lemma falls_objects rules i j p : one_table rules -> (fallsO (objects rules) i j p <-> falls rules i j p).
Proof.
  intros HT. split; intros (R & S0 & H); exists R, S0.
  - destruct H as (H1 & H2 & H3 & H4 & H5 & H6). apply objects_in in H1, H2. split; [auto|]. split; [auto|].
    split; [apply HT; eapply nth_error_In; eauto|]. repeat split; auto. intros k T Hk _ Lt Ac. apply (H6 k T); auto. now apply objects_in.
  - destruct H as (H1 & H2 & H2' & H3 & H4 & H5 & H6). split; [now apply objects_in|]. split; [now apply objects_in|]. repeat split; auto.
    intros k T Hk Lt Ac. apply objects_in in Hk. apply (H6 k T); auto. apply HT; eapply nth_error_In; eauto.
Qed.
Lemma covers_objects rules i j p : one_table rules -> (coversO (objects rules) i j p <-> covers rules i j p).
Proof.
  intros HT. split; intros (R & S0 & H); exists R, S0.
  - destruct H as (H1 & H2 & H3 & H4 & H5). apply objects_in in H1, H2. split; [auto|]. split; [auto|].
    split; [apply HT; eapply nth_error_In; eauto|]. auto.
  - destruct H as (H1 & H2 & H2' & H3 & H4 & H5). split; [now apply objects_in|]. split; [now apply objects_in|]. auto.
Qed.
