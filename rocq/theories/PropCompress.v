(** Theorems for C49, C50, C51, C69: ruleset compression. *)
From Coq Require Import Lia Permutation Sorted Relations.Operators_Properties.
From Coq Require Import ZifyBool ZifyNat ZifyN.
From Verif Require Import SpecBdd WildcardProofs MatchProofs MergeProofs ActionProofs SingleTableProofs NormaliseProofs PropNormalise PropMerge PropDepsMulti PropDepsInd Compress SpecCompress DepsProofs DepsTable TreeProofs GroupProofs SelectProofs SimilarProofs.
Local Open Scope string_scope.
Local Open Scope list_scope.
Local Open Scope nat_scope.
Local Opaque NB WC_FULLWC layout oxm_fields registry_init.

(** The dependencies are between rules of the ruleset. *)
Definition within_rules (rules : list rule) (deps : list edge) : Prop := forall a b, In (a, b) deps -> a < List.length rules /\ b < List.length rules.

Section Common.
  Context (r : registry) (rules : list rule) (deps : list edge).
  Context (Hr : forall R, In R rules -> rule_ok r R) (Hd : within_rules rules deps).
  Let U := seq 0 (List.length rules).
  Lemma rule_at i R : nth_error rules i = Some R -> rule_ok r R.
  Proof. intros H. apply Hr. eapply nth_error_In; eauto. Qed.
  Lemma keyed_at i k : keyed rules i k -> exists R, nth_error rules i = Some R /\ rule_ok r R /\ key_of R k.
  Proof. intros (R & H & E). assert (K := rule_at i R H). destruct (similar_key_ok r R K) as (k' & E' & Ko). rewrite E in E'. injection E' as <-. exists R. auto. Qed.
  Lemma keyed_all i : In i U -> exists k R, nth_error rules i = Some R /\ rule_ok r R /\ key_of R k /\ keyed rules i k.
  Proof.
    intros Hi. apply in_seq in Hi. destruct (nth_error rules i) as [R|] eqn:E; [|apply nth_error_None in E; lia]. assert (K := rule_at i R E). destruct (similar_key_ok r R K) as (k & E' & Ko).
    exists k, R. do 3 (split; [assumption || reflexivity|]). exists R. auto.
  Qed.
  Lemma Hk_all : forall R, In R rules -> exists k, similar_key (rcore R) = Ok k.
  Proof. intros R HR. destruct (similar_key_ok r R (Hr R HR)) as (k & E & _). eauto. Qed.
  Lemma together_rep d m i j : part_ok U d m -> (together d i j <-> In i U /\ In j U /\ m i = m j).
  Proof.
    intros P. split.
    - intros (g & l & Hl & Hi & Hj). split; [eapply part_in; eauto|]. split; [eapply part_in; eauto|]. destruct P as (_ & _ & _ & M). now rewrite (M g l i Hl Hi), (M g l j Hl Hj).
    - intros (Hi & Hj & E). destruct (part_find _ _ _ _ P Hi) as (g & l & Hl & Il & Ei). exists g, l. split; [exact Hl|]. split; [exact Il|].
      apply (part_cls U d m g l j P Hl Hj). congruence.
  Qed.
  Lemma part_grouping d m : part_ok U d m -> grouping (List.length rules) d.
  Proof. intros P. split; [apply P|]. split; [eapply part_keys_nodup; exact P|apply P]. Qed.
  Lemma create_cases : (exists d m, create_similar_groups rules deps = Ok (d, m) /\ part_ok U d m /\ stable (node_to_tree deps) d m /\ coarsest rules deps d) \/
    (create_similar_groups rules deps = Err TypeError /\ exists R S, In R rules /\ In S rules /\ mixed R S).
  Proof.
    assert (D : (forall i j k k', keyed rules i k -> keyed rules j k' -> is_ok (sim_cmp k k') = true) \/ exists i j k k', keyed rules i k /\ keyed rules j k' /\ is_ok (sim_cmp k k') = false).
    { destruct (keyed_list rules Hk_all) as (ks & _ & _ & Ik).
      destruct (forallb (fun x => forallb (fun y => is_ok (sim_cmp (fst x) (fst y))) ks) ks) eqn:E.
      - left. intros i j k k' Hi Hj. apply Ik in Hi, Hj. rewrite forallb_forall in E. specialize (E _ Hi). cbn [fst] in E. rewrite forallb_forall in E. exact (E _ Hj).
      - right. assert (Ne : forall (A : Type) (f : A -> bool) l, forallb f l = false -> exists x, In x l /\ f x = false).
        { intros A f l. induction l as [|x l IH]; cbn [forallb]; [discriminate|]. destruct (f x) eqn:X; [|exists x; cbn; auto]. cbn [andb]. intros H. destruct (IH H) as (y & A1 & A2). exists y. cbn. auto. }
        apply Ne in E as ([k i] & H1 & E). apply Ne in E as ([k' j] & H2 & E). cbn [fst] in E. apply Ik in H1, H2. exists i, j, k, k'. auto. }
    destruct D as [Cmp|(i & j & k & k' & Hi & Hj & C)].
    - left. destruct (create_ok rules deps Hk_all Hd Cmp) as (d & m & E & P & St & Sim & Co). exists d, m. split; [exact E|]. split; [exact P|]. split; [exact St|].
      fold U in P. split.
      + intros i j H. apply (together_rep d m i j P) in H as (Ui & Uj & Eij). destruct (keyed_all i Ui) as (k & R & HR & Rok & K & Ki), (keyed_all j Uj) as (k' & S0 & HS & Sok & K' & Kj).
        assert (G : forall x y, In x U -> In y U -> m x = m y -> sig_eq (node_to_tree deps) m x y).
        { intros x y Ux Uy Exy. destruct (part_find _ _ _ _ P Ux) as (g & l & Hl & Il & Ex). apply (St g l x y Hl Il). apply (part_cls U d m g l y P Hl Uy). congruence. }
        assert (Sup : forall x y, In x U -> In y U -> m x = m y -> forall k0, In (k0, x) deps -> exists k1, In (k1, y) deps /\ together d k0 k1).
        { intros x y Ux Uy Exy k0 H0. assert (U0 : In k0 U) by (apply in_seq; apply Hd in H0; lia). destruct (part_find _ _ _ _ P U0) as (g & _ & _ & _ & E0).
          destruct (proj1 (proj1 (G x y Ux Uy Exy) g)) as (k1 & H1 & E1); [exists k0; split; [now apply tree_parents_in|exact E0]|]. apply tree_parents_in in H1. exists k1. split; [exact H1|].
          apply (together_rep d m k0 k1 P). split; [exact U0|]. split; [apply in_seq; apply Hd in H1; lia|congruence]. }
        assert (Sub : forall x y, In x U -> In y U -> m x = m y -> forall k0, In (x, k0) deps -> exists k1, In (y, k1) deps /\ together d k0 k1).
        { intros x y Ux Uy Exy k0 H0. assert (U0 : In k0 U) by (apply in_seq; apply Hd in H0; lia). destruct (part_find _ _ _ _ P U0) as (g & _ & _ & _ & E0).
          destruct (proj1 (proj2 (G x y Ux Uy Exy) g)) as (k1 & H1 & E1); [exists k0; split; [now apply tree_children_in|exact E0]|]. apply tree_children_in in H1. exists k1. split; [exact H1|].
          apply (together_rep d m k0 k1 P). split; [exact U0|]. split; [apply in_seq; apply Hd in H1; lia|congruence]. }
        assert (Tsym : forall a b, together d a b -> together d b a) by (intros a b (g & l & A1 & A2 & A3); exists g, l; auto).
        split; [exists R, S0; split; [exact HR|]; split; [exact HS|]; apply (keys_similar r R S0 k k' Rok Sok K K'); exact (Sim i j k k' Ki Kj Eij)|].
        split; [exact (Sup i j Ui Uj Eij)|]. split; [intros k0 H0; destruct (Sup j i Uj Ui (eq_sym Eij) k0 H0) as (k1 & A1 & A2); eauto|].
        split; [exact (Sub i j Ui Uj Eij)|]. intros k0 H0; destruct (Sub j i Uj Ui (eq_sym Eij) k0 H0) as (k1 & A1 & A2); eauto.
      + intros Q HQ i j Hq. assert (InU : forall a R, nth_error rules a = Some R -> In a U) by (intros a R0 H0; apply in_seq; assert (X : nth_error rules a <> None) by congruence; apply nth_error_Some in X; lia).
        destruct (HQ i j Hq) as ((R & S0 & HR & HS & _) & _). apply (together_rep d m i j P). split; [eauto|]. split; [eauto|].
        apply (Co Q); [| |eauto|eauto|exact Hq].
        * intros x y Hxy. destruct (HQ x y Hxy) as (_ & A1 & A2 & A3 & A4). split; [|split; [|split]]; intros p Hp.
          -- apply tree_parents_in in Hp. destruct (A1 p Hp) as (p' & B1 & B2). exists p'. split; [now apply tree_parents_in|exact B2].
          -- apply tree_parents_in in Hp. destruct (A2 p Hp) as (p' & B1 & B2). exists p'. split; [now apply tree_parents_in|exact B2].
          -- apply tree_children_in in Hp. destruct (A3 p Hp) as (p' & B1 & B2). exists p'. split; [now apply tree_children_in|exact B2].
          -- apply tree_children_in in Hp. destruct (A4 p Hp) as (p' & B1 & B2). exists p'. split; [now apply tree_children_in|exact B2].
        * intros x y k k' Kx Ky Hxy. destruct (HQ x y Hxy) as ((R1 & S1 & HR1 & HS1 & Sm) & _). destruct (keyed_at x k Kx) as (R2 & E2 & O2 & K2), (keyed_at y k' Ky) as (R3 & E3 & O3 & K3).
          assert (R2 = R1) by congruence. assert (R3 = S1) by congruence. subst R2 R3. now apply (keys_similar r R1 S1 k k').
    - right. split; [unfold create_similar_groups; now rewrite (first_groups_mixed rules (node_to_tree deps) Hk_all i j k k' Hi Hj C)|].
      destruct (keyed_at i k Hi) as (R & HR & Ro & K), (keyed_at j k' Hj) as (S0 & HS & So & K'). exists R, S0. split; [eapply nth_error_In; eauto|]. split; [eapply nth_error_In; eauto|]. eapply keys_compare; eauto.
  Qed.
End Common.

Section Compress.
  Context (ord : list nat -> list nat) (r : registry) (rules : list rule) (deps : list edge) (res : list nat) (d : gdict).
  Context (Ho : forall l, Permutation (ord l) l) (Hr : forall R, In R rules -> rule_ok r R) (Hd : within_rules rules deps).
  Let U := seq 0 (List.length rules).
  Lemma forward_skey : forward rules deps -> forall a b, In b (tchildren (node_to_tree deps) a) -> skey_le rules b a = false.
  Proof.
    intros F a b H. apply tree_children_in in H. destruct (F a b H) as (R & S0 & HR & HS & L). unfold skey_le, skey. rewrite HR, HS. cbn [fst snd]. lia.
  Qed.
  Lemma compress_cases : compress_deps ord rules deps = Ok (res, d) ->
    exists m, part_ok U d m /\ coarsest rules deps d /\ res = sort_ids rules (map fst d) /\ (forward rules deps -> kept (node_to_tree deps) U m (map fst d)).
  Proof.
    intros E. unfold compress_deps in E. destruct (create_cases r rules deps Hr Hd) as [(d0 & m0 & E0 & P0 & St0 & C0)|(E0 & _)]; rewrite E0 in E; [|discriminate E]. cbn [rbind] in E.
    fold U in P0. destruct (select_compressed ord rules (node_to_tree deps) d0 m0) as [[[res' d'] m']|e] eqn:Es; [|discriminate E]. cbn [rbind] in E. injection E as <- <-.
    destruct (select_ok ord Ho rules (node_to_tree deps) U d0 m0) with (mono := forward rules deps) (res := res') (d := d') (m := m') as (P & Cl & Pr & So & K).
    - intros x y Hx Hy. eapply deps_closed; eauto.
    - exact P0.
    - exact St0.
    - intros a b. now rewrite tree_parents_in, tree_children_in.
    - intros x y Hx Hy Exy. assert (T : together d0 x y) by (apply (together_rep rules d0 m0 x y P0); auto). destruct (proj1 C0 x y T) as ((R & S0 & HR & HS & ((T1 & T2 & _) & _)) & _).
      unfold skey. now rewrite HR, HS, T1, T2.
    - exact forward_skey.
    - exact Es.
    - assert (Tg : forall i j, together d' i j <-> together d0 i j).
      { intros i j. rewrite (together_rep rules d' m' i j P), (together_rep rules d0 m0 i j P0). split; intros (A & B & X); (split; [exact A|]; split; [exact B|]); now apply (Cl i j A B). }
      exists m'. split; [exact P|]. split; [|split; [reflexivity|]].
      + split.
        * intros i j T. apply Tg in T. destruct (proj1 C0 i j T) as (A1 & A2 & A3 & A4 & A5). split; [exact A1|].
          split; [intros k H; destruct (A2 k H) as (k' & B1 & B2); exists k'; split; [exact B1|now apply Tg]|].
          split; [intros k H; destruct (A3 k H) as (k' & B1 & B2); exists k'; split; [exact B1|now apply Tg]|].
          split; [intros k H; destruct (A4 k H) as (k' & B1 & B2); exists k'; split; [exact B1|now apply Tg]|].
          intros k H; destruct (A5 k H) as (k' & B1 & B2); exists k'; split; [exact B1|now apply Tg].
        * intros Q HQ i j H. apply Tg. now apply (proj2 C0 Q HQ).
      + intros F. specialize (K F). intros a b x y Ha Hb Ux Uy Ex Ey. apply (K a b x y Ha Hb Ux Uy).
        * assert (Ua : In a U) by (apply in_map_iff in Ha as ([g l] & Eg & Hl); cbn [fst] in Eg; subst g; eapply part_in; [exact P|exact Hl|eapply part_head; [exact P|exact Hl]]). now apply (Cl x a Ux Ua).
        * assert (Ub : In b U) by (apply in_map_iff in Hb as ([g l] & Eg & Hl); cbn [fst] in Eg; subst g; eapply part_in; [exact P|exact Hl|eapply part_head; [exact P|exact Hl]]). now apply (Cl y b Uy Ub).
  Qed.
End Compress.
Lemma forward_within rules deps : forward rules deps -> within_rules rules deps.
Proof.
  intros F a b H. destruct (F a b H) as (R & S0 & HR & HS & _). split; apply nth_error_Some; congruence.
Qed.
Lemma sorted_weaken {A} (P Q : A -> A -> Prop) l : (forall a b, P a b -> Q a b) -> StronglySorted P l -> StronglySorted Q l.
Proof. intros H. induction 1 as [|x l S0 IH F]; constructor; [exact IH|]. eapply Forall_impl; [|exact F]. auto. Qed.
(** gotos lead to later tables *)
Lemma arrives_later rules : (forall R t, In R rules -> goto_table (inst (rcore R)) = Some t -> (table (rcore R) < t)%Z) ->
  forall t p j q, arrives rules t p j q -> exists S, nth_error rules j = Some S /\ (t <= table (rcore S))%Z.
Proof.
  intros H t p j q A. induction A as [t p j S0 H1 H2 H3|t p k S0 t' j q H1 H2 H3 H4 A IH].
  - exists S0. split; [exact H1|lia].
  - destruct IH as (S1 & B1 & B2). exists S1. split; [exact B1|]. assert (X := H S0 t' (nth_error_In _ _ H1) H4). lia.
Qed.

(** ** C49 *)
(** create_similar_groups returns the coarsest partition into groups of similar rules whose
    dependencies lead to the same groups, unless it compares the actions of two rules of which one
    sets a field that the other does not: then it raises a TypeError. *)
Theorem C49_groups : forall r rules deps, (forall R, In R rules -> rule_ok r R) -> within_rules rules deps ->
  (exists d m, create_similar_groups rules deps = Ok (d, m) /\ grouping (List.length rules) d /\ (forall g l i, In (g, l) d -> In i l -> m i = Some g) /\ coarsest rules deps d) \/
  (create_similar_groups rules deps = Err TypeError /\ exists R S, In R rules /\ In S rules /\ mixed R S).
Proof.
  intros r rules deps Hr Hd. destruct (create_cases r rules deps Hr Hd) as [(d & m & E & P & _ & C)|H]; [left|now right].
  exists d, m. split; [exact E|]. split; [eapply part_grouping; exact P|]. split; [apply P|exact C].
Qed.
(** without such a pair it always returns *)
Theorem C49_total_partial : forall r rules deps, (forall R, In R rules -> rule_ok r R) -> within_rules rules deps -> (forall R S, In R rules -> In S rules -> ~ mixed R S) ->
  exists d m, create_similar_groups rules deps = Ok (d, m) /\ grouping (List.length rules) d /\ coarsest rules deps d.
Proof.
  intros r rules deps Hr Hd Hm. destruct (C49_groups r rules deps Hr Hd) as [(d & m & E & G & _ & C)|(_ & R & S0 & HR & HS & M)]; [eauto|]. now elim (Hm R S0 HR HS).
Qed.

(** ** C50 *)
(** Whatever the order in which sets are iterated. *)
Theorem C50_representatives : forall ord r rules deps res d, (forall l, Permutation (ord l) l) -> (forall R, In R rules -> rule_ok r R) -> within_rules rules deps ->
  compress_deps ord rules deps = Ok (res, d) ->
  grouping (List.length rules) d /\ coarsest rules deps d /\ Permutation res (map fst d) /\
  (forall i, i < List.length rules -> exists! g, In g res /\ together d g i) /\
  StronglySorted (fun a b => forall R S, nth_error rules a = Some R -> nth_error rules b = Some S ->
    (table (rcore R) < table (rcore S))%Z \/ (table (rcore R) = table (rcore S) /\ priority (rcore S) <= priority (rcore R))%Z) res.
Proof.
  intros ord r rules deps res d Ho Hr Hd E. destruct (compress_cases ord r rules deps res d Ho Hr Hd E) as (m & P & C & -> & _).
  assert (Pr := sort_by_perm (skey_le rules) (map fst d)). fold (sort_ids rules (map fst d)) in Pr.
  split; [eapply part_grouping; exact P|]. split; [exact C|]. split; [exact Pr|]. split.
  - intros i Hi. assert (Ui : In i (seq 0 (List.length rules))) by (apply in_seq; lia). destruct (part_find _ _ _ _ P Ui) as (g & l & Hl & Il & Ei). exists g. split.
    + split; [apply (Permutation_in _ (Permutation_sym Pr)); apply in_map_iff; exists (g, l); auto|]. exists g, l. split; [exact Hl|]. split; [eapply part_head; eauto|exact Il].
    + intros g' [Hg' T]. apply (Permutation_in _ Pr) in Hg'. apply in_map_iff in Hg' as ([g1 l1] & E1 & Hl1). cbn [fst] in E1. subst g1.
      apply (together_rep rules d m g' i P) in T as (_ & _ & T). assert (H1 := part_head _ _ _ _ _ P Hl1). destruct P as (_ & _ & _ & M). assert (m g' = Some g') by (eapply M; eauto). congruence.
  - eapply sorted_weaken; [|unfold sort_ids; apply sort_by_sorted; clear; unfold skey_le; intros; lia]. intros a b L R S0 HR HS. unfold skey_le, skey in L. rewrite HR, HS in L. cbn [fst snd] in L. lia.
Qed.

(** ** C69 *)
(** If the dependencies lead to later tables or lower priorities, then the representatives of two
    groups depend on each other exactly as the groups do. *)
Theorem C69_dependencies : forall ord r rules deps res d, (forall l, Permutation (ord l) l) -> (forall R, In R rules -> rule_ok r R) -> forward rules deps ->
  compress_deps ord rules deps = Ok (res, d) ->
  forall a b, In a res -> In b res -> (In (a, b) deps <-> exists x y, together d a x /\ together d b y /\ In (x, y) deps).
Proof.
  intros ord r rules deps res d Ho Hr Hf E a b Ha Hb. assert (Hd := forward_within rules deps Hf). destruct (compress_cases ord r rules deps res d Ho Hr Hd E) as (m & P & C & -> & K).
  assert (Pr := sort_by_perm (skey_le rules) (map fst d)). fold (sort_ids rules (map fst d)) in Pr. apply (Permutation_in _ Pr) in Ha, Hb. specialize (K Hf).
  assert (Uk : forall g, In g (map fst d) -> In g (seq 0 (List.length rules))).
  { intros g Hg. apply in_map_iff in Hg as ([g1 l1] & E1 & Hl1). cbn [fst] in E1. subst g1. eapply part_in; [exact P|exact Hl1|]. eapply part_head; eauto. }
  split.
  - intros H. exists a, b. split; [apply (together_rep rules d m a a P); auto|]. split; [apply (together_rep rules d m b b P); auto|exact H].
  - intros (x & y & T1 & T2 & H). apply (together_rep rules d m a x P) in T1 as (_ & Ux & T1). apply (together_rep rules d m b y P) in T2 as (_ & Uy & T2).
    apply tree_children_in. apply (K a b x y Ha Hb Ux Uy (eq_sym T1) (eq_sym T2)). now apply tree_children_in.
Qed.
(** compress_ruleset without given dependencies (those of C68): two rules of the result depend on
    each other exactly as their groups do. *)
Theorem C69_compress_ruleset : forall ord edge_ord reg rules reg' res d, (forall l, Permutation (ord l) l) -> (forall l, Permutation (edge_ord l) l) ->
  reg_ok reg -> ruleset_ok reg rules -> (forall R, In R rules -> rule_ok reg R /\ (0 <= table (rcore R))%Z /\ plain_acts (orig_order (apply_actions (inst (rcore R))))) -> no_missing_table rules ->
  compress_ruleset ord edge_ord rules reg = (reg', Ok (res, d)) ->
  grouping (List.length rules) d /\ Permutation res (map fst d) /\
  forall a b, In a res -> In b res ->
    ((exists p, covers rules a b p \/ goto_chain rules a b p) <-> exists x y p, together d a x /\ together d b y /\ (covers rules x y p \/ goto_chain rules x y p)).
Proof.
  intros ord edge_ord reg rules reg' res d Ho He Hreg Hrs Hall Hmiss E.
  destruct (C68_indirect_ruleset 2 1 false reg rules ltac:(lia) eq_refl ltac:(lia) Hreg Hrs) as (r1 & e & E1 & _ & Ie).
  { intros R HR. apply Hall, HR. } { exact Hmiss. } { intros R HR _. destruct (Hall R HR) as ((_ & [Hi _] & _) & _ & Hp). auto. }
  unfold compress_ruleset, sbind in E. rewrite E1 in E. unfold slift in E. injection E as <- E.
  assert (Ie' : forall i j, In (i, j) (edge_ord e) <-> exists p, covers rules i j p \/ goto_chain rules i j p).
  { intros i j. split.
    - intros H. apply (Permutation_in _ (He e)) in H. apply Ie in H as [(p & H)|(p & H)]; exists p; auto.
    - intros (p & [H|H]); apply (Permutation_in _ (Permutation_sym (He e))); apply Ie; eauto. }
  assert (Hf : forward rules (edge_ord e)).
  { intros a b H. apply Ie' in H as (p & [(R & S0 & A1 & A2 & A3 & A4 & _)|H]).
    - exists R, S0. split; [exact A1|]. split; [exact A2|]. right. split; [congruence|exact A4].
    - destruct H as (R & t & q & A1 & _ & A3 & A4). destruct Hrs as (_ & _ & Hg). destruct (arrives_later rules) with (t := t) (p := inst_header (inst (rcore R)) p) (j := b) (q := q) as (S0 & B1 & B2).
      + intros R0 t0 H1 H2. apply (Hg R0 t0 H1 H2).
      + exact A4.
      + exists R, S0. split; [exact A1|]. split; [exact B1|]. left. assert (X := proj1 (Hg R t (nth_error_In _ _ A1) A3)). lia. }
  assert (Hr : forall R, In R rules -> rule_ok reg R) by (intros R HR; apply Hall, HR).
  destruct (C50_representatives ord reg rules (edge_ord e) res d Ho Hr (forward_within _ _ Hf) E) as (G & _ & Pr & _). split; [exact G|]. split; [exact Pr|].
  intros a b Ha Hb. rewrite <- (Ie' a b), (C69_dependencies ord reg rules (edge_ord e) res d Ho Hr Hf E a b Ha Hb). split.
  - intros (x & y & T1 & T2 & H). apply Ie' in H as (p & H). exists x, y, p. auto.
  - intros (x & y & p & T1 & T2 & H). exists x, y. split; [exact T1|]. split; [exact T2|]. apply Ie'. eauto.
Qed.

(** ** C51 *)
(** simplify_tree on an acyclic graph ([fuel] is the depth to which Python can recurse): every
    edge left was there, reachability is unchanged, no edge is left that has a detour, and the two
    lists of each node still agree. *)
Theorem C51_simplify : forall fuel deps nodes N, NoDup deps -> acyclic (fun a b => In (a, b) deps) -> (forall a b, In (a, b) deps -> a < N /\ b < N /\ In b nodes) -> N < fuel ->
  exists t, simplify_tree fuel (node_to_tree deps) nodes = Ok t /\
    let E := fun a b => In a (tparents t b) in
    (forall a b, E a b <-> In b (tchildren t a)) /\ (forall a b, E a b -> In (a, b) deps) /\
    (forall a b, reaches E a b <-> reaches (fun a b => In (a, b) deps) a b) /\ reduced E.
Proof.
  intros fuel deps nodes N ND Ac Bd L.
  assert (Ed : forall a b, edges (node_to_tree deps) a b <-> In (a, b) deps) by (intros a b; apply tree_parents_in).
  assert (Re : forall a b, reaches (edges (node_to_tree deps)) a b <-> reaches (fun a b => In (a, b) deps) a b).
  { intros a b. split; apply reaches_mono; intros x y H; now apply Ed. }
  destruct (simplify_ok fuel (node_to_tree deps) N nodes (tree_mirror deps ND)) as (t & E & (_ & _ & Mi) & Sub & Rt & Red).
  - intros x H. apply (Ac x). now apply Re.
  - intros a b H. apply Ed, Bd in H. tauto.
  - exact L.
  - exists t. split; [exact E|]. cbv zeta. split; [exact Mi|]. split; [intros a b H; now apply Ed, Sub|]. split; [intros a b; rewrite <- Re; apply Rt|].
    intros a b H (c & H1 & H2). assert (exists q, edges t q b /\ reaches (edges t) a q) as (q & Q1 & Q2).
    { apply clos_trans_tn1 in H2. inversion H2 as [X|q b0 X Y]; subst; [exists c; auto|]. exists q. split; [exact X|]. eapply t_trans; [exact H1|]. now apply clos_tn1_trans. }
    apply (Red b a q); [apply (Bd a), Ed, Sub, H|exact H|exact Q1|]. now apply Rt.
Qed.

(** ** Counterexamples *)
Local Open Scope Z_scope.
Lemma mk_rule_ok prio tbl items xs ws g c md :
  forallb (fun it => match dict_get registry_init (fst it) with Some _ => true | None => false end) items = true ->
  is_ok (al_of xs) = true -> is_ok (as_of ws) = true ->
  forallb (fun a => existsb (String.eqb (fst a)) plain_names || (String.eqb (fst a) "SET_FIELD" && match snd a with VSet _ _ => true | _ => false end)) (orig_order (ok_list xs) ++ orig_order (ok_set ws)) = true ->
  g <> Some 0 -> rule_ok registry_init (mk_g prio tbl items (mk_full xs ws g c md)).
Proof.
  intros H1 H2 H3 H4 H5. split; [now apply mk_match_ok|]. split; [|split].
  - eapply inst_wf_of with (xs := xs) (ws := ws); unfold mk_full, ok_list, ok_set; cbn [apply_actions write_actions inst rcore mk_g mk_core2]; [destruct (al_of xs)|destruct (as_of ws)]; auto; discriminate.
  - intros a Ha. rewrite forallb_forall in H4. assert (In a (orig_order (ok_list xs) ++ orig_order (ok_set ws))) as X by (apply in_or_app; destruct Ha; auto).
    specialize (H4 a X). apply orb_true_iff in H4 as [H4|H4].
    + left. apply existsb_exists in H4 as (n & Hn & E). apply String.eqb_eq in E. now rewrite E.
    + right. apply andb_true_iff in H4 as [A B]. apply String.eqb_eq in A. split; [exact A|]. destruct (snd a); try discriminate B. eauto.
  - exact H5.
Qed.
Definition outp (p : Z) : instructions := mk_full [OUTPUT p] [] None false None.
(** Two rules alike, one of them sets a field: Python cannot compare ("OUTPUT",) with
    (("SET_FIELD", "MPLS_BOS"), "OUTPUT"). *)
Definition ex49_mixed : list rule := [
  mk_g 30 0 [("IN_PORT", (0, None))] (mk_full [SETF "MPLS_BOS" 1; OUTPUT 1] [] None false None);
  mk_g 30 0 [("IN_PORT", (1, None))] (outp 2); mk_g 0 0 [] (outp 9)].
Lemma ex49_mixed_ok R : In R ex49_mixed -> rule_ok registry_init R.
Proof. intros H. destruct H as [<-|[<-|[<-|[]]]]; apply mk_rule_ok; try discriminate; vm_compute; reflexivity. Qed.
Theorem C49_total_refuted : ~ (forall r rules deps, (forall R, In R rules -> rule_ok r R) -> within_rules rules deps -> exists d m, create_similar_groups rules deps = Ok (d, m)).
Proof.
  intros H. destruct (H registry_init ex49_mixed [] ex49_mixed_ok) as (d & m & E); [intros a b []|].
  assert (X : is_ok (create_similar_groups ex49_mixed []) = false) by (vm_compute; reflexivity). rewrite E in X. discriminate X.
Qed.
(** Three groups of two rules whose dependencies go round with a twist. *)
Definition ex69 : list rule := [
  mk_g 30 0 [("IN_PORT", (0, None)); ("ETH_TYPE", (0, None))] (outp 1); mk_g 30 0 [("IN_PORT", (1, None)); ("ETH_TYPE", (1, None))] (outp 2);
  mk_g 20 0 [("IN_PORT", (0, None)); ("MPLS_BOS", (0, None))] (outp 1); mk_g 20 0 [("IN_PORT", (1, None)); ("MPLS_BOS", (1, None))] (outp 2);
  mk_g 10 0 [("ETH_TYPE", (1, None)); ("MPLS_BOS", (0, None))] (outp 1); mk_g 10 0 [("ETH_TYPE", (0, None)); ("MPLS_BOS", (1, None))] (outp 2);
  mk_g 0 0 [] (outp 9)].
Definition ex69_deps : list edge := [(0, 2); (0, 5); (0, 6); (1, 3); (1, 4); (1, 6); (2, 4); (2, 6); (3, 5); (3, 6); (4, 6); (5, 6)]%nat.
Lemma ex69_ok R : In R ex69 -> rule_ok registry_init R.
Proof. intros H. repeat (destruct H as [<-|H]; [apply mk_rule_ok; try discriminate; vm_compute; reflexivity|]). destruct H. Qed.
Lemma ex69_proper R : In R ex69 -> proper registry_init true (rcore R).
Proof. intros H. repeat (destruct H as [<-|H]; [apply mk_proper; vm_compute; reflexivity|]). destruct H. Qed.
Lemma ex69_ruleset : ruleset_ok registry_init ex69.
Proof.
  split; [discriminate|]. split; [intros R HR; apply ex69_ok, HR|]. intros R t HR E. exfalso. repeat (destruct HR as [<-|HR]; [discriminate E|]). destruct HR.
Qed.
(** compress_ruleset on it ends with the import of the debugger. *)
Theorem C69_total_refuted : ~ (forall ord edge_ord reg rules, (forall l, Permutation (ord l) l) -> (forall l, Permutation (edge_ord l) l) ->
  reg_ok reg -> ruleset_ok reg rules -> (forall R, In R rules -> rule_ok reg R /\ (0 <= table (rcore R))%Z /\ plain_acts (orig_order (apply_actions (inst (rcore R))))) -> no_missing_table rules ->
  (forall R S, In R rules -> In S rules -> ~ mixed R S) -> exists reg' res d, compress_ruleset ord edge_ord rules reg = (reg', Ok (res, d))).
Proof.
  intros H. destruct (H (fun l => l) (fun l => l) registry_init ex69) as (reg' & res & d & E).
  - reflexivity. - reflexivity. - exact reg_init_ok. - exact ex69_ruleset.
  - intros R HR. split; [now apply ex69_ok|]. split; [repeat (destruct HR as [<-|HR]; [vm_compute; discriminate|]); destruct HR|]. apply ex69_proper in HR. apply HR.
  - intros R t HR X. exfalso. repeat (destruct HR as [<-|HR]; [discriminate X|]). destruct HR.
  - intros R S0 HR HS (_ & f & X). apply X. assert (N : forall T, In T ex69 -> ~ has_kind T "SET_FIELD" (Some f)); [|split; intros Y; [now apply N in Y|now apply N in Y]].
    intros T HT (a & [D|D] & A & _); repeat (destruct HT as [<-|HT]; [vm_compute in D; repeat (destruct D as [<-|D]; [discriminate A|]); destruct D|]); destruct HT.
  - assert (X : is_ok (snd (compress_ruleset (fun l => l) (fun l => l) ex69 registry_init)) = false) by (vm_compute; reflexivity). rewrite E in X. discriminate X.
Qed.
(** No choice of representatives would do there. *)
Theorem C69_no_choice : forall d m, create_similar_groups ex69 ex69_deps = Ok (d, m) ->
  ~ exists c, (forall i, (i < 7)%nat -> together d i (c i)) /\ (forall i j, together d i j -> c i = c j) /\ forall x y, In (x, y) ex69_deps -> In (c x, c y) ex69_deps.
Proof.
  intros d m E (c & H1 & H2 & H3).
  assert (D : d = [(0, [0; 1]); (2, [2; 3]); (5, [5; 4]); (6, [6])]%nat).
  { assert (X : match create_similar_groups ex69 ex69_deps with Ok (d, _) => d | _ => [] end = [(0, [0; 1]); (2, [2; 3]); (5, [5; 4]); (6, [6])]%nat) by (vm_compute; reflexivity). rewrite E in X. exact X. }
  assert (Tg : forall i j, together d i j -> In (i, j) [(0, 0); (0, 1); (1, 0); (1, 1); (2, 2); (2, 3); (3, 2); (3, 3); (5, 5); (5, 4); (4, 5); (4, 4); (6, 6)]%nat).
  { intros i j (g & l & A & B & C). rewrite D in A. cbn [In] in A. repeat (destruct A as [A|A]; [injection A as <- <-; cbn [In] in B, C; intuition (subst; cbn [In]; tauto)|]). destruct A. }
  assert (E1 : In (c 0%nat, c 2%nat) ex69_deps) by (apply H3; cbn; tauto). assert (E2 : In (c 0%nat, c 5%nat) ex69_deps) by (apply H3; cbn; tauto).
  assert (E3 : In (c 2%nat, c 4%nat) ex69_deps) by (apply H3; cbn; tauto).
  assert (E4 : c 4%nat = c 5%nat) by (apply H2; rewrite D; exists 5%nat, [5; 4]%nat; cbn; tauto). rewrite E4 in E3.
  assert (Fd : forall e l, In e l -> existsb (fun x : edge => Nat.eqb (fst x) (fst e) && Nat.eqb (snd x) (snd e)) l = true).
  { intros e l X. apply existsb_exists. exists e. split; [exact X|]. now rewrite !Nat.eqb_refl. }
  assert (Pick : forall i, (i < 7)%nat -> existsb (fun x : edge => Nat.eqb (fst x) i && Nat.eqb (snd x) (c i)) [(0, 0); (0, 1); (1, 0); (1, 1); (2, 2); (2, 3); (3, 2); (3, 3); (5, 5); (5, 4); (4, 5); (4, 4); (6, 6)]%nat = true).
  { intros i Hi. exact (Fd _ _ (Tg _ _ (H1 i Hi))). }
  apply Fd in E1, E2, E3. cbn [fst snd] in E1, E2, E3.
  assert (T0 := Pick 0%nat ltac:(lia)). assert (T2 := Pick 2%nat ltac:(lia)). assert (T5 := Pick 5%nat ltac:(lia)). clear - E1 E2 E3 T0 T2 T5.
  destruct (c 0%nat) as [|[|n0]]; [| |discriminate T0]; (destruct (c 2%nat) as [|[|[|[|n2]]]]; [discriminate T2|discriminate T2| | |discriminate T2]); try discriminate E1;
  (destruct (c 5%nat) as [|[|[|[|[|[|n5]]]]]]; [discriminate T5|discriminate T5|discriminate T5|discriminate T5| | |discriminate T5]); discriminate E2 || discriminate E3.
Qed.

(** ** Examples *)
(** Without the first two rules it compresses from five rules to three. *)
Definition ex50 : list rule := tl (tl ex69).
Definition ex50_deps : list edge := [(0, 2); (0, 4); (1, 3); (1, 4); (2, 4); (3, 4)]%nat.
Lemma ex50_ok R : In R ex50 -> rule_ok registry_init R.
Proof. intros H. apply ex69_ok. right. right. exact H. Qed.
Lemma ex50_forward : forward ex50 ex50_deps.
Proof. intros a b H. repeat (destruct H as [H|H]; [injection H as <- <-; eexists _, _; split; [reflexivity|]; split; [reflexivity|]; right; split; reflexivity|]). destruct H. Qed.
Example C49_ex : exists d m, create_similar_groups ex50 ex50_deps = Ok (d, m) /\ grouping 5 d /\ together d 0 1 /\ ~ together d 1 2.
Proof.
  destruct (C49_total_partial registry_init ex50 ex50_deps ex50_ok (forward_within _ _ ex50_forward)) as (d & m & E & G & C).
  - intros R S0 HR HS (_ & f & X). apply X. assert (N : forall T, In T ex50 -> ~ has_kind T "SET_FIELD" (Some f)); [|split; intros Y; [now apply N in Y|now apply N in Y]].
    intros T HT (a & [D|D] & A & _); repeat (destruct HT as [<-|HT]; [vm_compute in D; repeat (destruct D as [<-|D]; [discriminate A|]); destruct D|]); destruct HT.
  - exists d, m. split; [exact E|]. split; [exact G|]. split.
    + assert (X : match create_similar_groups ex50 ex50_deps with Ok (d, _) => d | _ => [] end = [(0, [0; 1]); (2, [2; 3]); (4, [4])]%nat) by (vm_compute; reflexivity). rewrite E in X. subst d.
      exists 0%nat, [0; 1]%nat. cbn. tauto.
    + intros T. destruct (proj1 C 1%nat 2%nat T) as ((R & S0 & HR & HS & ((_ & P & _) & _)) & _). injection HR as <-. injection HS as <-. vm_compute in P. discriminate P.
Qed.
Example C50_ex : compress_deps (fun l => l) ex50 ex50_deps = Ok ([0; 2; 4]%nat, [(0, [0; 1]); (2, [2; 3]); (4, [4])]%nat).
Proof. vm_compute. reflexivity. Qed.
Example C69_ex : forall a b, In a [0; 2; 4]%nat -> In b [0; 2; 4]%nat ->
  (In (a, b) ex50_deps <-> exists x y, together [(0, [0; 1]); (2, [2; 3]); (4, [4])]%nat a x /\ together [(0, [0; 1]); (2, [2; 3]); (4, [4])]%nat b y /\ In (x, y) ex50_deps).
Proof. exact (C69_dependencies (fun l => l) registry_init ex50 ex50_deps _ _ (fun l => Permutation_refl l) ex50_ok ex50_forward C50_ex). Qed.
Example C51_ex : exists t, simplify_tree 4 (node_to_tree [(0, 1); (1, 2); (0, 2)]%nat) [0; 1; 2]%nat = Ok t /\ In 1%nat (tparents t 2%nat) /\ ~ In 0%nat (tparents t 2%nat).
Proof.
  assert (Ac : acyclic (fun a b => In (a, b) [(0, 1); (1, 2); (0, 2)]%nat)).
  { intros x H. assert (L : forall a b, reaches (fun a b => In (a, b) [(0, 1); (1, 2); (0, 2)]%nat) a b -> (a < b)%nat).
    { induction 1 as [a b X|a b c _ IH1 _ IH2]; [|lia]. repeat (destruct X as [X|X]; [injection X as <- <-; lia|]). destruct X. }
    apply L in H. lia. }
  destruct (C51_simplify 4 [(0, 1); (1, 2); (0, 2)]%nat [0; 1; 2]%nat 3) as (t & E & K); [| exact Ac | |lia|].
  - repeat constructor; cbn; intuition discriminate.
  - intros a b H. repeat (destruct H as [H|H]; [injection H as <- <-; cbn; repeat split; lia || tauto|]). destruct H.
  - exists t. split; [exact E|]. assert (X : match simplify_tree 4 (node_to_tree [(0, 1); (1, 2); (0, 2)]%nat) [0; 1; 2]%nat with Ok t => tparents t 2%nat | _ => [] end = [1%nat]) by (vm_compute; reflexivity).
    rewrite E in X. rewrite X. split; [now left|]. intros [Y|[]]. discriminate Y.
Qed.

Print Assumptions C49_groups.
Print Assumptions C49_total_partial.
Print Assumptions C49_total_refuted.
Print Assumptions C50_representatives.
Print Assumptions C51_simplify.
Print Assumptions C69_dependencies.
Print Assumptions C69_compress_ruleset.
Print Assumptions C69_total_refuted.
Print Assumptions C69_no_choice.
