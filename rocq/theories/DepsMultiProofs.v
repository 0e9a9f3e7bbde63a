(** Dependencies across tables: the direct builder. *)
From Coq Require Import Lia Permutation Sorted.
From Coq Require Import ZifyBool ZifyNat ZifyN.
From Verif Require Import SpecBdd WildcardProofs MatchProofs BddProofs CuddProofs BddApi SpecPipeline MergeProofs Deps SpecDeps DepsProofs DepsTable.
Local Open Scope string_scope.
Local Open Scope list_scope.
Local Open Scope Z_scope.
Local Opaque NB WC_FULLWC layout oxm_fields registry_init.

(** [entersO]: [enters] over a list of objects *)
Definition entersO (objs : list (nat * rule)) (i j : nat) (p : packet) : Prop :=
  exists R S t q, In (i, R) objs /\ In (j, S) objs /\
  goto_table (inst (rcore R)) = Some t /\ table (rcore S) = t /\
  rule_accepts R q /\ (forall b, p b = inst_header (inst (rcore R)) q b) /\ rule_accepts S p /\
  forall k T, In (k, T) objs -> table (rcore T) = t -> rule_accepts T p ->
    priority (rcore T) < priority (rcore S) \/ (priority (rcore T) = priority (rcore S) /\ (j <= k)%nat).
Lemma enters_objects rules i j p : entersO (objects rules) i j p <-> enters rules i j p.
Proof.
  split; intros (R & S0 & t & q & H1 & H2 & H3 & H4 & H5 & H6 & H7 & H8); exists R, S0, t, q.
  - apply objects_in in H1, H2. do 7 (split; [assumption|]). intros k T Hk. apply H8. now apply objects_in.
  - split; [now apply objects_in|]. split; [now apply objects_in|]. do 5 (split; [assumption|]). intros k T Hk. apply H8. now apply objects_in.
Qed.

(** the tables of a ruleset *)
Lemma with_table_in t objs x : In x (with_table t objs) <-> In x objs /\ table (rcore (snd x)) = t.
Proof. unfold with_table. rewrite filter_In, Z.eqb_eq. reflexivity. Qed.
Lemma tables_of_in objs t : In t (tables_of objs) <-> exists x, In x objs /\ table (rcore (snd x)) = t.
Proof.
  unfold tables_of. split.
  - intros H. apply (Permutation_in _ (sort_by_perm _ _)) in H. apply nodup_In in H. apply in_map_iff in H as (x & E & H). eauto.
  - intros (x & H & E). apply (Permutation_in _ (Permutation_sym (sort_by_perm _ _))). apply nodup_In. apply in_map_iff. eauto.
Qed.
Lemma falls_tables rules i j p :
  falls rules i j p <-> exists t, In t (tables_of (objects rules)) /\ fallsO (with_table t (objects rules)) i j p.
Proof.
  split.
  - intros (R & S0 & H1 & H2 & H3 & H4 & H5 & H6 & H7). exists (table (rcore R)). apply objects_in in H1, H2.
    split; [apply tables_of_in; exists (i, R); auto|]. exists R, S0. split; [now apply with_table_in|]. split; [now apply with_table_in|].
    do 3 (split; [assumption|]). intros k T Hk. apply with_table_in in Hk as [Hk Et]. apply H7; [now apply objects_in|exact Et].
  - intros (t & _ & R & S0 & H1 & H2 & H3 & H4 & H5 & H6). apply with_table_in in H1 as [H1 E1], H2 as [H2 E2]. cbn [snd] in E1, E2.
    apply objects_in in H1, H2. exists R, S0. split; [auto|]. split; [auto|]. split; [congruence|]. do 3 (split; [assumption|]).
    intros k T Hk Et. apply H6. apply with_table_in. split; [now apply objects_in|]. cbn [snd]. congruence.
Qed.
Lemma sorted_filter {A} (q : A -> bool) (rel : A -> A -> Prop) l : StronglySorted rel l -> StronglySorted rel (filter q l).
Proof.
  induction 1 as [|x l S0 IH F]; cbn [filter]; [constructor|]. destruct (q x); [|exact IH]. constructor; [exact IH|].
  apply Forall_forall. intros y Hy. apply filter_In in Hy as [Hy _]. rewrite Forall_forall in F. auto.
Qed.

Lemma merge_keys {V} (d : list (edge * V)) : forall r, NoDup (map fst r) ->
  let r' := fold_left (fun r x => eset r (fst x) (snd x)) d r in
  NoDup (map fst r') /\ forall e, In e (map fst r') <-> In e (map fst d) \/ In e (map fst r).
Proof.
  induction d as [|[k v] d IH]; intros r ND; cbn [fold_left map fst snd In].
  - split; [exact ND|]. intuition auto.
  - destruct (IH (eset r k v) (eset_nodup _ _ _ ND)) as [A B]. split; [exact A|]. intros e. rewrite B, eset_keys. intuition auto.
Qed.

Section Multi.
  Context (SHIFT one : Z) (Hs : 0 < SHIFT) (Hs2 : SHIFT mod 2 = 0) (one_nz : one <> 0).

  (** the goto of one rule *)
  Lemma goto_runs r ns R t s : reg_ok r -> ids_sorted ns -> Forall (node_ok one) ns -> In R ns ->
    match_ok r (nmatch R) -> egress_safe (nrule R) -> goto_table (ninst R) = Some t -> ntable R < t -> NoDup (map fst (fst s)) ->
    runs (goto_deps SHIFT one ns s R) r (fun _ s' => NoDup (map fst (fst s')) /\ forall e, In e (map fst (fst s')) <->
      (exists p, entersO (map (fun n => (nid n, nrule n)) ns) (nid R) (snd e) p /\ fst e = nid R) \/ In e (map fst (fst s))).
  Proof.
    intros Hr Hi F HR Hm He Hg Hlt NK. unfold goto_deps. rewrite Hg. assert (E : (ntable R <? t) = true) by lia. rewrite E.
    set (P := filter (fun x => ntable x =? t) ns). assert (ND := ids_nodup _ Hi).
    assert (St : same_table R P = false).
    { destruct P as [|x P'] eqn:EP; [reflexivity|]. cbn [same_table]. assert (X : In x P) by (rewrite EP; now left).
      apply filter_In in X as [_ X]. lia. }
    rewrite Forall_forall in F.
    assert (OKs : Forall (node_ok one) (sort_by prio_ge P)).
    { apply Forall_forall. intros x Hx. apply (Permutation_in _ (sort_by_perm _ _)) in Hx. apply filter_In in Hx as [Hx _]. auto. }
    assert (NDs : NoDup (map nid (sort_by prio_ge P))).
    { eapply Permutation_NoDup; [apply Permutation_sym, Permutation_map, sort_by_perm|]. now apply ids_nodup, ids_filter. }
    unfold add_parents_bdd, start_bdd. rewrite St.
    eapply runs_bind with (post := fun _ b => mask one b /\ forall p, on b p <-> exists q, rule_accepts (nrule R) q /\ forall k, p k = inst_header (ninst R) q k).
    - eapply runs_bind; [apply egress_wc_runs; auto|]. cbn beta. intros r1 wc R1 L1 [W A]. apply runs_ret; [auto|].
      destruct (wc_one_ok SHIFT one Hs Hs2 one_nz wc W) as [M O]. split; [exact M|]. intros p. rewrite O. apply A.
    - cbn beta. intros r1 b R1 L1 [Mb Ob]. apply runs_ret; [auto|].
      destruct (parents_bdd_spec one one_nz _ b Mb OKs NDs) as [S1 S2].
      assert (NDl : NoDup (map fst (parents_bdd b (sort_by prio_ge P)))) by (now apply parents_bdd_nodup).
      destruct (record_fold (nid R) _ s NDl NK) as (A & B & _). split; [exact A|].
      assert (Key : forall p j, (on b p /\ exists n, nid n = j /\ hit (sort_by prio_ge P) p = Some n) <->
        entersO (map (fun n => (nid n, nrule n)) ns) (nid R) j p).
      { intros p j. rewrite Ob. split.
        - intros ((q & Hq & Eq) & n & <- & Hn). apply hit_sorted in Hn as (Hn & Qn & On & Mx); [|exact Hi].
          exists (nrule R), (nrule n), t, q. split; [now apply node_in_obj|]. split; [now apply node_in_obj|].
          split; [exact Hg|]. split; [now apply Z.eqb_eq|]. split; [exact Hq|]. split; [exact Eq|]. split; [now apply (F n Hn)|].
          intros k T HTk HP HA. apply in_map_iff in HTk as (y & [= <- <-] & Hy). apply Mx; [auto|now apply Z.eqb_eq|now apply (F y Hy)].
        - intros (R' & S' & t' & q & HR' & HS' & Hg' & Ht' & Hq & Eq & HA & Mx).
          apply in_map_iff in HR' as (x & [= Ex <-] & Hx). apply in_map_iff in HS' as (n & [= <- <-] & Hn).
          assert (x = R) by (apply (NoDup_map_eq nid ns ND); auto). subst x.
          assert (Et : t' = t) by congruence. rewrite Et in Ht', Mx. clear Et.
          split; [exists q; split; [exact Hq|exact Eq]|]. exists n. split; [reflexivity|]. apply hit_sorted; [exact Hi|].
          split; [auto|]. split; [now apply Z.eqb_eq|]. split; [now apply (F n Hn)|].
          intros y Hy Qy Oy. apply (Mx (nid y) (nrule y)); [now apply node_in_obj|cbn beta in Qy; apply Z.eqb_eq in Qy; exact Qy|now apply (F y Hy)]. }
      assert (Kl : forall j, In j (map fst (parents_bdd b (sort_by prio_ge P))) <-> exists p, entersO (map (fun n => (nid n, nrule n)) ns) (nid R) j p).
      { intros j. split.
        - intros H. apply in_map_iff in H as ([j' b'] & <- & H). destruct (S1 _ _ H) as (_ & (p & Hp) & O). exists p. apply Key. now apply O.
        - intros (p & H). apply Key in H as (Hp & n & <- & Hn). destruct (S2 p n Hp Hn) as (b' & Hb). apply (in_map fst) in Hb. exact Hb. }
      intros [i j]. cbn [fst snd]. split.
      + intros H. destruct (eget (fst (fold_left (record_bdd (nid R)) (parents_bdd b (sort_by prio_ge P)) s)) (i, j)) as [v|] eqn:Ev.
        * apply B in Ev as [[-> H']|[H' _]].
          -- left. apply (in_map fst) in H'. apply Kl in H' as (p & H'). eauto.
          -- right. apply (eget_in _ _ _ NK) in H'. apply (in_map fst) in H'. exact H'.
        * apply eget_none in Ev. contradiction.
      + intros H. destruct (eget (fst (fold_left (record_bdd (nid R)) (parents_bdd b (sort_by prio_ge P)) s)) (i, j)) as [v|] eqn:Ev.
        * apply (eget_in _ _ _ A) in Ev. apply (in_map fst) in Ev. exact Ev.
        * exfalso.
          assert (N1 : ~ (i = nid R /\ In j (map fst (parents_bdd b (sort_by prio_ge P))))).
          { intros [-> X]. apply in_map_iff in X as ([j' v] & Ej & X). cbn [fst] in Ej. subst j'.
            assert (Y : eget (fst (fold_left (record_bdd (nid R)) (parents_bdd b (sort_by prio_ge P)) s)) (nid R, j) = Some v) by (apply B; auto). congruence. }
          destruct H as [(p & H & ->)|H].
          -- apply N1. split; [reflexivity|]. apply Kl. eauto.
          -- destruct (eget (fst s) (i, j)) as [v|] eqn:Es; [|apply eget_none in Es; contradiction].
             assert (Y : eget (fst (fold_left (record_bdd (nid R)) (parents_bdd b (sort_by prio_ge P)) s)) (i, j) = Some v) by (apply B; auto). congruence.
  Qed.

  (** all rules; [build] is exact on each table *)
  Lemma ruleset_runs build r rules : reg_ok r -> rules <> [] ->
    (forall R, In R rules -> match_ok r (rmatch (rcore R))) ->
    (forall R t, In R rules -> goto_table (inst (rcore R)) = Some t -> table (rcore R) < t /\ egress_safe R) ->
    (forall t r0, reg_ok r0 -> rle r r0 -> In t (tables_of (objects rules)) ->
      runs (build (with_table t (objects rules))) r0 (fun _ d => forall i j, In (i, j) (map fst d) <-> exists p, fallsO (with_table t (objects rules)) i j p)) ->
    runs (build_ruleset_deps SHIFT one build rules) r (fun _ e => NoDup e /\
      forall i j, In (i, j) e <-> (exists p, falls rules i j p) \/ (exists p, enters rules i j p)).
  Proof.
    intros Hr Hne Hm Hg HB. set (objs := objects rules) in *.
    assert (Hm' : forall x, In x objs -> match_ok r (rmatch (rcore (snd x)))) by (intros x Hx; apply Hm; now apply objects_rule).
    destruct (attach_all_ok SHIFT one Hs Hs2 one_nz r objs Hm') as (ns & En & Mn & F).
    assert (Hi := objs_ids _ _ Mn (objects_sorted rules)).
    unfold build_ruleset_deps. fold objs. eapply runs_bind with (post := fun r' a => a = ns).
    { apply runs_lift with (a := ns); [|auto|reflexivity]. unfold attach. destruct objs eqn:Eo; [|exact En].
      unfold objs, objects in Eo. destruct rules; [congruence|discriminate]. }
    intros r1 ns' R1 L1 ->.
    eapply runs_bind with (post := fun _ d => NoDup (map fst d) /\ forall i j, In (i, j) (map fst d) <-> exists p, falls rules i j p).
    - assert (G : forall todo done r0 d, reg_ok r0 -> rle r r0 -> done ++ todo = tables_of objs -> NoDup (map fst d) ->
        (forall i j, In (i, j) (map fst d) <-> exists t p, In t done /\ fallsO (with_table t objs) i j p) ->
        runs (sfold (fun reaches t => sdo d <- build (with_table t objs); sret (fold_left (fun r x => eset r (fst x) (snd x)) d reaches)) todo d) r0
          (fun _ d => NoDup (map fst d) /\ forall i j, In (i, j) (map fst d) <-> exists p, falls rules i j p)).
      { induction todo as [|t todo IH]; intros done r0 d R0 L0 E NK Inv; cbn [sfold].
        - rewrite app_nil_r in E. subst done. apply runs_ret; [auto|]. split; [exact NK|]. intros i j. rewrite Inv. split.
          + intros (t & p & H1 & H2). exists p. apply falls_tables. fold objs. eauto.
          + intros (p & H). apply falls_tables in H as (t & H1 & H2). fold objs in H1, H2. eauto.
        - assert (Ht : In t (tables_of objs)) by (rewrite <- E; apply in_elt).
          eapply runs_bind with (post := fun _ d' => NoDup (map fst d') /\ forall i j, In (i, j) (map fst d') <-> (exists p, fallsO (with_table t objs) i j p) \/ In (i, j) (map fst d)).
          + eapply runs_bind; [apply HB; auto|]. cbn beta. intros r2 d2 R2 L2 H. apply runs_ret; [auto|].
            destruct (merge_keys d2 d NK) as [A B]. split; [exact A|]. intros i j. rewrite B, H. reflexivity.
          + cbn beta. intros r2 d2 R2 L2 [NK2 H]. apply (IH (done ++ [t])); [auto|eapply rle_trans; eauto|now rewrite <- app_assoc|exact NK2|].
            intros i j. rewrite H, Inv. split.
            * intros [(p & Hp)|(t' & p & H1 & H2)]; [exists t, p|exists t', p]; rewrite in_app_iff; cbn [In]; auto.
            * intros (t' & p & H1 & H2). apply in_app_or in H1 as [H1|[<-|[]]]; eauto. }
      apply (G (tables_of objs) [] r1 []); [auto|auto|reflexivity|constructor|]. intros i j. cbn [map In]. split; [intros []|]. intros (t & p & [] & _).
    - cbn beta. intros r2 d R2 L2 [NKd Hd].
      eapply runs_bind with (post := fun _ s => NoDup (map fst (fst s)) /\ forall e, In e (map fst (fst s)) <->
        (exists p, entersO objs (fst e) (snd e) p) \/ In e (map fst d)).
      + assert (G : forall todo done r0 s, reg_ok r0 -> rle r r0 -> done ++ todo = ns -> NoDup (map fst (fst s)) ->
          (forall e, In e (map fst (fst s)) <-> (exists p, entersO objs (fst e) (snd e) p /\ In (fst e) (map nid done)) \/ In e (map fst d)) ->
          runs (sfold (goto_deps SHIFT one ns) todo s) r0 (fun _ s => NoDup (map fst (fst s)) /\ forall e, In e (map fst (fst s)) <->
            (exists p, entersO objs (fst e) (snd e) p) \/ In e (map fst d))).
        { induction todo as [|R todo IH]; intros done r0 s R0 L0 E NK Inv; cbn [sfold].
          - rewrite app_nil_r in E. subst done. apply runs_ret; [auto|]. split; [exact NK|]. intros e. rewrite Inv. split.
            + intros [(p & H & _)|H]; eauto.
            + intros [(p & H)|H]; [|auto]. left. exists p. split; [exact H|]. destruct H as (R' & _ & _ & _ & H & _). rewrite <- Mn in H.
              apply in_map_iff in H as (x & [= <- _] & Hx). now apply in_map.
          - assert (HR : In R ns) by (rewrite <- E; apply in_elt). assert (HR' := HR). apply node_in_obj in HR'. rewrite Mn in HR'.
            eapply runs_bind with (post := fun _ s' => NoDup (map fst (fst s')) /\ forall e, In e (map fst (fst s')) <->
              (exists p, entersO objs (nid R) (snd e) p /\ fst e = nid R) \/ In e (map fst (fst s))).
            + destruct (goto_table (ninst R)) as [t|] eqn:Eg.
              * destruct (Hg (nrule R) t (objects_rule _ _ HR') Eg) as [Lt Es]. rewrite <- Mn.
                apply goto_runs with (t := t); auto. eapply match_ok_mono; [exact L0|]. exact (Hm' _ HR').
              * unfold goto_deps. rewrite Eg. apply runs_ret; [auto|]. split; [exact NK|]. intros e. split; [auto|].
                intros [(p & H & _)|H]; [|auto]. exfalso. destruct H as (R' & _ & t & _ & H1 & _ & H2 & _).
                rewrite <- Mn in H1. apply in_map_iff in H1 as (x & [= Ex Er] & Hx).
                assert (x = R) by (apply (NoDup_map_eq nid ns (ids_nodup _ Hi)); auto). subst x R'. congruence.
            + cbn beta. intros r3 s3 R3 L3 [NK3 H3]. apply (IH (done ++ [R])); [auto|eapply rle_trans; eauto|now rewrite <- app_assoc|exact NK3|].
              intros [i j]. rewrite H3, Inv. cbn [fst snd]. rewrite map_app. cbn [map]. split.
              * intros [(p & H & ->)|[(p & H & H')|H]]; [left; exists p|left; exists p|auto]; rewrite in_app_iff; cbn [In]; auto.
              * intros [(p & H & H')|H]; [|auto]. apply in_app_or in H' as [H'|[<-|[]]]; [right; left|left]; eauto. }
        apply (G ns [] r2 (d, [])); [auto|eapply rle_trans; eauto|reflexivity|exact NKd|]. intros e. cbn [map In fst].
        split; [auto|]. intros [(p & _ & [])|H]; exact H.
      + cbn beta. intros r3 s R3 L3 [NK H]. apply runs_ret; [auto|]. split; [exact NK|]. intros i j. rewrite H, Hd. cbn [fst snd].
        unfold objs. split.
        * intros [(p & X)|X]; [right|auto]. exists p. now apply enters_objects.
        * intros [X|(p & X)]; [auto|left]. exists p. now apply enters_objects.
  Qed.

  (** a backward goto *)
  Lemma goto_backward r ns R t s : goto_table (ninst R) = Some t -> t <= ntable R -> goto_deps SHIFT one ns s R r = (r, Err AssertionError).
  Proof. intros E H. unfold goto_deps. rewrite E. assert (X : (ntable R <? t) = false) by lia. rewrite X. reflexivity. Qed.
End Multi.
