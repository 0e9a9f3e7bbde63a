(** The dependency builders on any table: whatever the lowest rules do, a run that returns has
    the exact result. (The egress of a rule without possible parents is computed and not used.) *)
From Coq Require Import Lia Permutation Sorted.
From Coq Require Import ZifyBool ZifyNat ZifyN.
From Verif Require Import SpecBdd WildcardProofs HSProofs MatchProofs BddProofs CuddProofs BddApi SpecPipeline MergeProofs Deps SpecDeps DepsProofs DepsTable.
Local Open Scope string_scope.
Local Open Scope list_scope.
Local Open Scope Z_scope.
Local Opaque NB WC_FULLWC layout oxm_fields registry_init.

(** [gives c post]: a run of [c] that returns, from any registry, has a result in [post]. *)
Definition gives {A} (c : st A) (post : A -> Prop) : Prop := forall r r' a, c r = (r', Ok a) -> post a.
Lemma gives_ret {A} (a : A) (post : A -> Prop) : post a -> gives (sret a) post.
Proof. intros H r r' b [= _ <-]. exact H. Qed.
Lemma gives_bind {A B} (c : st A) (f : A -> st B) post post' : gives c post -> (forall a, post a -> gives (f a) post') -> gives (sbind c f) post'.
Proof. intros H1 H2 r r' b E. apply sbind_ok in E as (r1 & a & E1 & E2). eapply H2; [eapply H1; eauto|eauto]. Qed.
Lemma gives_lift {A} (x : result A) a (post : A -> Prop) : x = Ok a -> post a -> gives (slift x) post.
Proof. intros -> H r r' b [= _ <-]. exact H. Qed.
Lemma gives_any {A} (c : st A) : gives c (fun _ => True).
Proof. intros r r' a _. exact Logic.I. Qed.
Lemma gives_weaken {A} (c : st A) (post post' : A -> Prop) : gives c post -> (forall a, post a -> post' a) -> gives c post'.
Proof. intros H1 H2 r r' a E. eauto. Qed.

Section Any.
  Context (SHIFT one : Z) (Hs : 0 < SHIFT) (Hs2 : SHIFT mod 2 = 0) (one_nz : one <> 0).
  Definition plain_table (r : registry) (objs : list (nat * rule)) : Prop :=
    objs <> [] /\ objs_sorted objs /\ (forall x, In x objs -> match_ok r (rmatch (rcore (snd x)))) /\
    (forall x y, In x objs -> In y objs -> table (rcore (snd x)) = table (rcore (snd y))).

  Lemma add_parents_gives R P s : (forall x, In x P -> ntable x = ntable R) ->
    gives (add_parents_bdd SHIFT one R P s) (fun s' => s' = fold_left (record_bdd (nid R)) (parents_bdd (nbdd R) (sort_by prio_ge P)) s).
  Proof.
    intros Ht. unfold add_parents_bdd, start_bdd. destruct P as [|x P].
    - cbn [same_table]. eapply gives_bind; [apply gives_any|]. intros b _. now apply gives_ret.
    - assert (E : same_table R (x :: P) = true) by (cbn [same_table]; apply Z.eqb_eq; symmetry; apply Ht; now left).
      rewrite E. eapply gives_bind with (post := fun b => b = nbdd R); [now apply gives_ret|]. intros b ->. now apply gives_ret.
  Qed.
  Lemma table_deps_gives r objs : plain_table r objs ->
    gives (table_deps_bdd SHIFT one objs) (fun d => NoDup (map fst d) /\
      (forall i j b, In ((i, j), b) d -> mask one b /\ (exists p, on b p) /\ forall p, on b p <-> fallsO objs i j p) /\
      (forall i j p, fallsO objs i j p -> exists b, In ((i, j), b) d)).
  Proof.
    intros (Hne & Hso & Hm & HT).
    destruct (attach_all_ok SHIFT one Hs Hs2 one_nz r objs Hm) as (ns & En & Mn & F).
    assert (Hi := objs_ids _ _ Mn Hso). assert (ND := ids_nodup _ Hi).
    assert (HTn : forall x y, In x ns -> In y ns -> ntable x = ntable y).
    { intros x y Hx Hy. apply node_in_obj in Hx. apply node_in_obj in Hy. rewrite Mn in Hx, Hy. exact (HT _ _ Hx Hy). }
    unfold table_deps_bdd. eapply gives_bind with (post := fun a => a = ns).
    { apply gives_lift with (a := ns); [|auto]. unfold attach. destruct objs; [congruence|exact En]. }
    intros ns' ->.
    eapply gives_bind with (post := fun s => NoDup (map fst (fst s)) /\ forall i j b, eget (fst s) (i, j) = Some b <->
      exists R, In R ns /\ nid R = i /\ In (j, b) (parents_bdd (nbdd R) (sort_by prio_ge (potential_parents ns R)))).
    - assert (G : forall todo done s, done ++ todo = ns -> NoDup (map fst (fst s)) ->
        (forall i j b, eget (fst s) (i, j) = Some b <-> exists R, In R done /\ nid R = i /\ In (j, b) (parents_bdd (nbdd R) (sort_by prio_ge (potential_parents ns R)))) ->
        gives (sfold (fun s R => add_parents_bdd SHIFT one R (potential_parents ns R) s) todo s) (fun s' => NoDup (map fst (fst s')) /\ forall i j b, eget (fst s') (i, j) = Some b <->
          exists R, In R ns /\ nid R = i /\ In (j, b) (parents_bdd (nbdd R) (sort_by prio_ge (potential_parents ns R))))).
      { induction todo as [|R todo IH]; intros done s E NK Inv; cbn [sfold].
        - rewrite app_nil_r in E. subst done. apply gives_ret; auto.
        - assert (HR : In R ns) by (rewrite <- E; apply in_elt).
          destruct (table_entries SHIFT one one_nz ns R Hi F HTn HR) as (NDl & _ & _).
          eapply gives_bind; [apply add_parents_gives|].
          + intros x Hx. rewrite (parents_table ns R HTn HR) in Hx. apply filter_In in Hx as [Hx _]. now apply HTn.
          + cbn beta. intros s2 ->. destruct (record_fold (nid R) _ s NDl NK) as (A & B & _).
            apply (IH (done ++ [R])); [now rewrite <- app_assoc|exact A|].
            intros i j b. rewrite B, Inv. split.
            * intros [[-> H]|[(R' & H1 & H2 & H3) _]]; [exists R|exists R']; rewrite in_app_iff; cbn [In]; auto.
            * intros (R' & H1 & H2 & H3). apply in_app_or in H1 as [H1|[<-|[]]]; [|left; auto]. right. split; [eauto|].
              intros [-> _]. assert (R' = R); [|subst R'].
              { apply (NoDup_map_eq nid ns ND); auto. rewrite <- E. apply in_or_app. now left. }
              rewrite <- E in ND. rewrite map_app in ND. cbn [map] in ND. apply NoDup_remove_2 in ND. apply ND, in_or_app. left. now apply in_map. }
      apply (G ns [] ([], [])); auto; [constructor|]. intros i j b. cbn. split; [discriminate|]. intros (R & [] & _).
    - intros s [NK Inv]. apply gives_ret. split; [exact NK|]. rewrite <- Mn. split.
      + intros i j b H. apply (eget_in _ _ _ NK) in H. apply Inv in H as (R & HR & <- & H).
        destruct (table_entries SHIFT one one_nz ns R Hi F HTn HR) as (_ & A & _). auto.
      + intros i j p H. assert (X := H). destruct X as (R' & _ & HR' & _). apply in_map_iff in HR' as (R & [= <- <-] & HR).
        destruct (table_entries SHIFT one one_nz ns R Hi F HTn HR) as (_ & _ & A). destruct (A j p H) as (b & Hb'). exists b. apply (eget_in _ _ _ NK). apply Inv. eauto.
  Qed.

  (** ** The headerspace variant *)
  Lemma add_parents_hs_gives r ns R s : ids_sorted ns -> (forall x, In x ns -> match_ok r (nmatch x)) ->
    (forall x y, In x ns -> In y ns -> ntable x = ntable y) -> In R ns ->
    gives (add_parents_hs R (potential_parents ns R) s) (fun s' => exists l, hs_entries ns R l /\ s' = fold_left (fun s x => eset s (nid R, fst x) (snd x)) l s).
  Proof.
    intros Hi Hm HT HR. assert (Pp := parents_table ns R HT HR). assert (ND := ids_nodup _ Hi).
    assert (Wn : forall x, In x ns -> wnode_ok x).
    { intros x Hx. destruct (match_wc_ok r _ (Hm x Hx)) as (w & E & W & _ & A). exists w. auto. }
    assert (Fs : Forall wnode_ok (sort_by prio_ge (potential_parents ns R))).
    { apply Forall_forall. intros x Hx. apply (Permutation_in _ (sort_by_perm _ _)) in Hx. apply filter_In in Hx as [Hx _]. auto. }
    assert (NDs : NoDup (map nid (sort_by prio_ge (potential_parents ns R)))).
    { eapply Permutation_NoDup; [apply Permutation_sym, Permutation_map, sort_by_perm|]. now apply ids_nodup, ids_filter. }
    unfold add_parents_hs, start_hs. destruct (potential_parents ns R) as [|x P] eqn:EP.
    - eapply gives_bind; [apply gives_any|]. intros h _. cbn [sort_by fold_right parents_hs]. eapply gives_bind with (post := fun x => x = []); [now apply gives_lift with (a := [])|].
      intros l ->. apply gives_ret. exists []. split; [|reflexivity]. split; [constructor|]. split; [intros j []|]. split; [intros j h' []|].
      intros j p (R' & S' & HR' & HS' & Hlt & _). apply in_map_iff in HR' as (y & [= Ex <-] & Hx). apply in_map_iff in HS' as (n & [= <- <-] & Hn).
      assert (y = R) by (apply (NoDup_map_eq nid ns ND); auto). subst y. exfalso.
      assert (Y : In n []) by (rewrite Pp; apply filter_In; split; [auto|lia]). destruct Y.
    - assert (X : In x ns). { assert (X : In x (potential_parents ns R)) by (rewrite EP; now left). now apply filter_In in X. }
      cbn [same_table]. rewrite (HT R x HR X), Z.eqb_refl. rewrite <- EP in *. clear x P EP X.
      destruct (Wn R HR) as (w & E & W & A).
      eapply gives_bind with (post := fun h => h = add_hs hs_empty w).
      { eapply gives_bind with (post := fun x => x = w); [now apply gives_lift with (a := w)|]. intros a ->. now apply gives_ret. }
      intros h ->. set (h := add_hs hs_empty w) in *.
      assert (Hh : hs_ok h) by (apply hs_ok_add; [intros y ds []|auto]).
      assert (Ah : forall p, hs_accepts h p <-> rule_accepts (nrule R) p).
      { intros p. unfold h. rewrite hs_add_accepts, A. split; [|auto]. intros [(y & ds & [] & _)|H]; auto. }
      destruct (parents_hs_spec _ h Hh Fs NDs) as (l & El & NDl & Il & Sl & Cl).
      eapply gives_bind with (post := fun x => x = l); [now apply gives_lift with (a := l)|]. intros x ->.
      apply gives_ret. exists l. split; [|reflexivity].
      assert (Key : forall p j, (hs_accepts h p /\ exists n, nid n = j /\ find (wcb p) (sort_by prio_ge (potential_parents ns R)) = Some n) <->
        fallsO (map (fun n => (nid n, nrule n)) ns) (nid R) j p).
      { intros p j. split.
        - intros (Hp & n & <- & Hn). rewrite Pp in Hn. apply find_first in Hn as (Hn & Qn & On & Mx); [|exact Hi].
          exists (nrule R), (nrule n). split; [now apply node_in_obj|]. split; [now apply node_in_obj|].
          split; [lia|]. split; [now apply Ah|]. split; [apply (wcb_spec p n); auto|].
          intros k T HTk HP HA. apply in_map_iff in HTk as (y & [= <- <-] & Hy). apply Mx; [auto|lia|apply wcb_spec; auto].
        - intros (R' & S' & HR' & HS' & Hlt & AR' & AS' & Mx).
          apply in_map_iff in HR' as (y & [= Ex <-] & Hx). apply in_map_iff in HS' as (n & [= <- <-] & Hn).
          assert (y = R) by (apply (NoDup_map_eq nid ns ND); auto). subst y.
          split; [now apply Ah|]. exists n. split; [reflexivity|]. rewrite Pp. apply find_first; [exact Hi|].
          split; [auto|]. split; [lia|]. split; [apply wcb_spec; auto|].
          intros z Hz Qz Oz. apply (Mx (nid z) (nrule z)); [now apply node_in_obj|lia|apply wcb_spec; auto]. }
      split; [exact NDl|]. split; [|split].
      + intros j Hj. apply Il in Hj. apply in_map_iff in Hj as (S0 & E0 & HS). apply (Permutation_in _ (sort_by_perm _ _)) in HS.
        rewrite Pp in HS. apply filter_In in HS as [HS Q]. exists S0. split; [auto|]. split; [auto|lia].
      + intros j k Hj p. now rewrite (Sl j k Hj p), Key.
      + intros j p Hf. apply Key in Hf as (H1 & n & <- & H2). eauto.
  Qed.
  Lemma table_deps_hs_gives r objs : plain_table r objs ->
    gives (table_deps_hs objs) (fun d => NoDup (map fst d) /\
      (forall i j h, In ((i, j), h) d -> (exists R S, In (i, R) objs /\ In (j, S) objs /\ priority (rcore S) < priority (rcore R)) /\ forall p, hs_accepts h p <-> fallsO objs i j p) /\
      (forall i j p, fallsO objs i j p -> exists h, In ((i, j), h) d)).
  Proof.
    intros (Hne & Hso & Hm & HT). destruct (bare_ids objs Hso) as [Hi Mn]. set (ns := bare objs) in *. assert (ND := ids_nodup _ Hi).
    assert (Hmn : forall x, In x ns -> match_ok r (nmatch x)).
    { intros x Hx. apply node_in_obj in Hx. rewrite Mn in Hx. exact (Hm _ Hx). }
    assert (HTn : forall x y, In x ns -> In y ns -> ntable x = ntable y).
    { intros x y Hx Hy. apply node_in_obj in Hx. apply node_in_obj in Hy. rewrite Mn in Hx, Hy. exact (HT _ _ Hx Hy). }
    unfold table_deps_hs. fold ns.
    assert (G : forall todo done s, done ++ todo = ns -> NoDup (map fst s) ->
      (forall i j b, eget s (i, j) = Some b -> exists R l, In R done /\ nid R = i /\ hs_entries ns R l /\ In (j, b) l) ->
      (forall R, In R done -> exists l, hs_entries ns R l /\ forall j b, In (j, b) l -> eget s (nid R, j) = Some b) ->
      gives (sfold (fun s R => add_parents_hs R (potential_parents ns R) s) todo s) (fun s' => NoDup (map fst s') /\
        (forall i j b, eget s' (i, j) = Some b -> exists R l, In R ns /\ nid R = i /\ hs_entries ns R l /\ In (j, b) l) /\
        (forall R, In R ns -> exists l, hs_entries ns R l /\ forall j b, In (j, b) l -> eget s' (nid R, j) = Some b))).
    { induction todo as [|R todo IH]; intros done s E NK I1 I2; cbn [sfold].
      - rewrite app_nil_r in E. subst done. apply gives_ret; auto.
      - assert (HR : In R ns) by (rewrite <- E; apply in_elt).
        eapply gives_bind; [eapply add_parents_hs_gives; eauto|]. cbn beta. intros s2 (l & Hl & ->).
        destruct (hs_fold (nid R) l s (proj1 Hl) NK) as (A & B).
        assert (Nd : forall R', In R' done -> nid R' <> nid R).
        { intros R' H1 H2. rewrite <- E, map_app in ND. cbn [map] in ND. apply NoDup_remove_2 in ND. apply ND, in_or_app. left. rewrite <- H2. now apply in_map. }
        apply (IH (done ++ [R])); [now rewrite <- app_assoc|exact A| |].
        + intros i j b H. apply B in H as [[-> H]|[H _]].
          * exists R, l. rewrite in_app_iff. cbn [In]. auto.
          * destruct (I1 i j b H) as (R' & l' & H1 & H2 & H3 & H4). exists R', l'. rewrite in_app_iff. auto.
        + intros R' HR'. apply in_app_or in HR' as [HR'|[<-|[]]].
          * destruct (I2 R' HR') as (l' & H1 & H2). exists l'. split; [auto|]. intros j b Hj. apply B. right. split; [auto|].
            intros [X _]. now apply (Nd R' HR').
          * exists l. split; [auto|]. intros j b Hj. apply B. auto. }
    eapply gives_weaken; [apply (G ns [] []); auto|].
    - constructor. - discriminate. - intros R [].
    - cbn beta. intros d (NK & I1 & I2). split; [exact NK|]. split.
      + intros i j h H. apply (eget_in _ _ _ NK) in H. apply I1 in H as (R & l & HR & <- & (_ & E1 & E2 & _) & H). rewrite <- Mn. split; [|now apply E2].
        apply (in_map fst) in H. cbn [fst] in H. apply E1 in H as (S0 & HS & <- & Lt). exists (nrule R), (nrule S0).
        split; [now apply node_in_obj|]. split; [now apply node_in_obj|exact Lt].
      + intros i j p H. rewrite <- Mn in H. assert (X := H). destruct X as (R' & _ & HR' & _). apply in_map_iff in HR' as (R & [= <- <-] & HR).
        destruct (I2 R HR) as (l & (_ & _ & _ & E3) & H2). destruct (E3 j p H) as (h & Hh). exists h. apply (eget_in _ _ _ NK). auto.
  Qed.

  (** ** The indirect builders *)
  Lemma ind_loop_gives objs ns (step : list edge -> node -> st (list edge)) :
    map (fun n => (nid n, nrule n)) ns = objs ->
    (forall R s, In R ns -> gives (step s R) (fun s' => (NoDup s -> NoDup s') /\
       forall e, In e s' <-> In e s \/ exists j p, e = (nid R, j) /\ exists S, In (j, S) objs /\ priority (rcore S) < nprio R /\ rule_accepts (nrule R) p /\ rule_accepts S p)) ->
    gives (sfold step ns []) (fun s' => NoDup s' /\ forall i j, In (i, j) s' <-> exists p, coversO objs i j p).
  Proof.
    intros Mn Hstep.
    assert (G : forall todo done s, done ++ todo = ns -> NoDup s ->
      (forall i j, In (i, j) s <-> exists R p, In R done /\ nid R = i /\ exists S, In (j, S) objs /\ priority (rcore S) < nprio R /\ rule_accepts (nrule R) p /\ rule_accepts S p) ->
      gives (sfold step todo s) (fun s' => NoDup s' /\ forall i j, In (i, j) s' <-> exists p, coversO objs i j p)).
    { induction todo as [|R todo IH]; intros done s E ND Inv; cbn [sfold].
      - rewrite app_nil_r in E. subst done. apply gives_ret. split; [auto|]. intros i j. rewrite Inv. split.
        + intros (R & p & HR & <- & S0 & H). exists p, (nrule R), S0. rewrite <- Mn at 1. split; [now apply node_in_obj|exact H].
        + intros (p & R' & S0 & HR & H). rewrite <- Mn in HR. apply in_map_iff in HR as (R & [= <- <-] & HR). eauto 10.
      - assert (HR : In R ns) by (rewrite <- E; apply in_elt).
        eapply gives_bind; [apply Hstep; auto|]. cbn beta. intros s2 [A B].
        apply (IH (done ++ [R])); [now rewrite <- app_assoc|auto|].
        intros i j. rewrite B, Inv. split.
        + intros [(R' & p & H1 & H2 & H3)|(j' & p & [= -> ->] & H)].
          * exists R', p. rewrite in_app_iff. auto.
          * exists R, p. rewrite in_app_iff. cbn [In]. auto.
        + intros (R' & p & H1 & H2 & H3). apply in_app_or in H1 as [H1|[<-|[]]]; [left; eauto|]. right. subst i. eauto. }
    apply (G ns [] []); auto; [constructor|]. intros i j. split; [intros []|]. intros (R & p & [] & _).
  Qed.
  Lemma runs_gives {A} (c : st A) (post : A -> Prop) r r' a : runs c r (fun _ => post) -> c r = (r', Ok a) -> post a.
  Proof. intros (r1 & b & E & _ & _ & H) E2. rewrite E in E2. now injection E2 as _ <-. Qed.
  Lemma ind_wc_fold_gives r R P w s : (forall x, In x P -> match_ok r (nmatch x)) ->
    gives (sfold (fun s Rj => sdo wj <- slift (match_wc (nmatch Rj)); sret (if wildcard_intersect w wj =? 0 then s else eadd s (R, nid Rj))) P s)
      (fun s' => (NoDup s -> NoDup s') /\ forall e, In e s' <-> In e s \/ exists x p, In x P /\ e = (R, nid x) /\ accepts w p /\ rule_accepts (nrule x) p).
  Proof.
    revert s. induction P as [|x P IH]; intros s Hm; cbn [sfold].
    - apply gives_ret. split; [auto|]. intros e. split; [auto|]. intros [H|(y & p & [] & _)]; auto.
    - destruct (match_wc_ok r _ (Hm x (or_introl eq_refl))) as (wj & E & W & _ & A).
      set (s1 := if wildcard_intersect w wj =? 0 then s else eadd s (R, nid x)).
      eapply gives_bind with (post := fun a => a = s1).
      { eapply gives_bind with (post := fun a => a = wj); [apply gives_lift with (a := wj); auto|]. intros a ->. apply gives_ret; auto. }
      intros a ->. eapply gives_weaken; [apply IH|].
      { intros y Hy. apply Hm. now right. }
      cbn beta. intros s2 [N B].
      assert (C : forall e, In e s1 <-> In e s \/ (e = (R, nid x) /\ exists p, accepts w p /\ rule_accepts (nrule x) p)).
      { intros e. unfold s1. destruct (Z.eqb_spec (wildcard_intersect w wj) 0) as [Z0|NZ].
        - apply wildcard_intersect_zero in Z0. split; [auto|]. intros [H|[_ (p & H1 & H2)]]; [auto|]. elim Z0. exists p. rewrite A. auto.
        - assert (Ex : exists p, accepts w p /\ rule_accepts (nrule x) p).
          { destruct (wildcard_intersect_cases w wj) as [[Hz E']|[_ E']]; [|congruence].
            destruct (zfree_nonempty _ Hz) as [p Hp]. apply accepts_land in Hp as [H1 H2]. exists p. split; [auto|]. now apply A. }
          rewrite eadd_in. split; [intros [->|H]; auto|intros [H|[-> _]]; auto]. }
      split.
      + intros H. apply N. unfold s1. destruct (_ =? 0); [auto|now apply eadd_nodup].
      + intros e. rewrite B, C. cbn [In]. split.
        * intros [[H|[-> (p & H)]]|(y & p & H1 & H2)]; eauto 8.
        * intros [H|(y & p & [<-|H1] & H2 & H3)]; eauto 8.
  Qed.
  Lemma ind_table_gives r objs : plain_table r objs ->
    gives (ind_table_deps objs) (fun s => NoDup s /\ forall i j, In (i, j) s <-> exists p, coversO objs i j p) /\
    gives (ind_table_deps_bdd SHIFT one objs) (fun s => NoDup s /\ forall i j, In (i, j) s <-> exists p, coversO objs i j p).
  Proof.
    intros (Hne & Hso & Hm & HT).
    assert (Gen : forall ns, map (fun n => (nid n, nrule n)) ns = objs -> ids_sorted ns /\
      (forall x, In x ns -> match_ok r (nmatch x)) /\ (forall x y, In x ns -> In y ns -> ntable x = ntable y)).
    { intros ns Mn. split; [eapply objs_ids; eauto|].
      assert (Hmn : forall x, In x ns -> match_ok r (nmatch x)). { intros x Hx. apply node_in_obj in Hx. rewrite Mn in Hx. exact (Hm _ Hx). }
      split; [exact Hmn|].
      intros x y Hx Hy. apply node_in_obj in Hx. apply node_in_obj in Hy. rewrite Mn in Hx, Hy. exact (HT _ _ Hx Hy). }
    split.
    - unfold ind_table_deps. destruct (bare_ids objs Hso) as [_ Mn]. destruct (Gen _ Mn) as (Hi & Hmn & HTn).
      apply ind_loop_gives; [exact Mn|]. set (ns := bare objs) in *. intros R s HR. assert (Pp := parents_table ns R HTn HR).
      unfold ind_parents_hs. eapply gives_bind with (post := fun w => potential_parents ns R <> [] -> forall p, accepts w p <-> rule_accepts (nrule R) p).
      + unfold ind_start_wc. destruct (potential_parents ns R) as [|x P] eqn:EP.
        * intros ? ? ? _ X. congruence.
        * assert (X : In x ns). { assert (X : In x (potential_parents ns R)) by (rewrite EP; now left). now apply filter_In in X. }
          cbn [same_table]. rewrite (HTn R x HR X), Z.eqb_refl. destruct (match_wc_ok r _ (Hmn R HR)) as (w & E & W & _ & A).
          apply gives_lift with (a := w); auto.
      + intros w A. eapply gives_weaken; [eapply ind_wc_fold_gives|].
        * intros x Hx. apply filter_In in Hx as [Hx _]. exact (Hmn x Hx).
        * cbn beta. intros s2 [N B]. split; [exact N|]. intros e. rewrite B. split.
          -- intros [H|(x & p & Hx & -> & H1 & H2)]; [auto|]. right. exists (nid x), p. split; [reflexivity|]. exists (nrule x).
             assert (NE : potential_parents ns R <> []) by (intros X; rewrite X in Hx; destruct Hx).
             rewrite Pp in Hx. apply filter_In in Hx as [Hx Q]. split; [rewrite <- Mn; now apply node_in_obj|]. split; [lia|]. split; [now apply A|auto].
          -- intros [H|(j & p & -> & S0 & HS & Lt & H1 & H2)]; [auto|]. right. rewrite <- Mn in HS. apply in_map_iff in HS as (x & [= <- <-] & Hx).
             assert (Hx' : In x (potential_parents ns R)) by (rewrite Pp; apply filter_In; split; [auto|lia]).
             exists x, p. split; [auto|]. split; [reflexivity|]. split; [|auto]. apply A; [|auto]. intros X. rewrite X in Hx'. destruct Hx'.
    - destruct (attach_all_ok SHIFT one Hs Hs2 one_nz r objs Hm) as (ns & En & Mn & F). destruct (Gen _ Mn) as (Hi & Hmn & HTn).
      rewrite Forall_forall in F. unfold ind_table_deps_bdd. eapply gives_bind with (post := fun a => a = ns).
      { apply gives_lift with (a := ns); auto. unfold attach. destruct objs; [congruence|exact En]. }
      intros ns' ->. apply ind_loop_gives; [exact Mn|]. intros R s HR. assert (Pp := parents_table ns R HTn HR).
      unfold ind_parents_bdd. eapply gives_bind with (post := fun b => potential_parents ns R <> [] -> b = nbdd R).
      + unfold start_bdd. destruct (potential_parents ns R) as [|x P] eqn:EP.
        * intros ? ? ? _ X. congruence.
        * assert (X : In x ns). { assert (X : In x (potential_parents ns R)) by (rewrite EP; now left). now apply filter_In in X. }
          cbn [same_table]. rewrite (HTn R x HR X), Z.eqb_refl. apply gives_ret; auto.
      + intros b Hb'. apply gives_ret.
        destruct (eadd_fold (fun x => cudd_bool (binter b (nbdd x))) (nid R) (potential_parents ns R) s) as [A B]. split; [exact B|].
        intros e. rewrite A. split.
        * intros [H|(x & Hx & H1 & ->)]; [auto|]. right.
          assert (NE : potential_parents ns R <> []) by (intros X; rewrite X in Hx; destruct Hx).
          rewrite (Hb' NE) in H1. rewrite Pp in Hx. apply filter_In in Hx as [Hx Q]. destruct (F R HR) as [MR AR]. destruct (F x Hx) as [Mx Ax].
          destruct (mask_inter one one_nz _ _ MR Mx) as [Mi Oi]. apply (cudd_bool_on _ (proj1 Mi)) in H1 as [p Hp]. apply Oi in Hp as [P1 P2].
          exists (nid x), p. split; [reflexivity|]. exists (nrule x). split; [rewrite <- Mn; now apply node_in_obj|]. split; [lia|].
          split; [now apply AR|now apply Ax].
        * intros [H|(j & p & -> & S0 & HS & Lt & H1 & H2)]; [auto|]. right. rewrite <- Mn in HS. apply in_map_iff in HS as (x & [= <- <-] & Hx).
          assert (Hx' : In x (potential_parents ns R)) by (rewrite Pp; apply filter_In; split; [auto|lia]).
          assert (NE : potential_parents ns R <> []) by (intros X; rewrite X in Hx'; destruct Hx').
          exists x. split; [auto|]. split; [|reflexivity]. rewrite (Hb' NE). destruct (F R HR) as [MR AR]. destruct (F x Hx) as [Mx Ax].
          destruct (mask_inter one one_nz _ _ MR Mx) as [Mi Oi]. apply (cudd_bool_on _ (proj1 Mi)). exists p. apply Oi. split; [now apply AR|now apply Ax].
  Qed.
End Any.
(** all matches are well-formed and in one table *)
Definition table_of_rules (r : registry) (rules : list rule) : Prop :=
  rules <> [] /\ (forall R, In R rules -> match_ok r (rmatch (rcore R))) /\ one_table rules.
Lemma table_of_plain r rules : table_of_rules r rules -> plain_table r (objects rules).
Proof.
  intros (A & B & C). split; [destruct rules; [congruence|discriminate]|]. split; [apply objects_sorted|].
  split; [intros x Hx; apply B; now apply objects_rule|]. intros x y Hx Hy; apply C; now apply objects_rule.
Qed.
