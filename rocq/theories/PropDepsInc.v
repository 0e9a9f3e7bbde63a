(** Theorems for C45 and C66: the incremental construction of the dependency graph. *)
From Coq Require Import Lia Permutation Sorted.
From Coq Require Import ZifyBool ZifyNat ZifyN.
From Verif Require Import SpecBdd WildcardProofs MatchProofs BddProofs CuddProofs BddApi SpecPipeline MergeProofs Deps SpecDeps DepsProofs DepsTable DepsAny DepsIncProofs ActionProofs MatchWcProofs NormaliseProofs PropNormalise PropDeps.
Local Open Scope string_scope.
Local Open Scope list_scope.
Local Open Scope Z_scope.
Local Opaque NB WC_FULLWC layout oxm_fields registry_init.

(** ** C45 *)
(** The default matches everything and has the strictly lowest priority, no other rule matches
    everything, rules of equal priority do not overlap. [ord] is the order in which sets are
    iterated, any permutation. Then the incremental construction returns the exact edges and
    spaces: those of build_table_deps. *)
Theorem C45_incremental_partial : forall SHIFT one ord r rules k D, 0 < SHIFT -> SHIFT mod 2 = 0 -> one <> 0 -> (forall l, Permutation (ord l) l) ->
  table_of_rules r rules -> nth_error rules k = Some D -> match_all D ->
  (forall i T, nth_error rules i = Some T -> i <> k -> priority (rcore D) < priority (rcore T) /\ ~ match_all T) -> separated rules ->
  forall reg, exists d, build_table_deps_incremental SHIFT one ord rules reg = (reg, Ok d) /\
    (forall reg1 reg2 d', build_table_deps SHIFT one rules reg1 = (reg2, Ok d') -> Permutation d d') /\
    NoDup (map fst d) /\ (forall i j, In (i, j) (map fst d) <-> exists p, falls rules i j p) /\
    (forall i j b, In ((i, j), b) d -> forall p, adenote b p <> 0 <-> falls rules i j p).
Proof.
  intros SHIFT one ord r rules k D Hs Hs2 Ho Hp Ht HD Dall Dlow Hsep reg.
  assert (Pt := table_of_plain r rules Ht). assert (F := fun i j p => falls_objects rules i j p (proj2 (proj2 Ht))).
  destruct (inc_runs SHIFT one ord Hs Hs2 Ho Hp r (objects rules) k D) with (reg := reg) as (d & E & ND & A & B).
  - exact Pt. - now apply objects_in. - exact Dall.
  - intros i T H N. apply objects_in in H. now apply (Dlow i).
  - intros i j R S0 p HR HS. apply objects_in in HR, HS. apply (Hsep i j R S0 p HR HS). apply (proj2 (proj2 Ht)); eapply nth_error_In; eauto.
  - exists d. split; [exact E|]. split; [|split; [exact ND|split]].
    + intros reg1 reg2 d' E'. destruct (table_deps_gives SHIFT one Hs Hs2 Ho r _ Pt _ _ _ E') as (ND' & A' & B').
      assert (G : forall d1 d2, (forall i j b, In ((i, j), b) d1 -> mask one b /\ (exists p, on b p) /\ forall p, on b p <-> fallsO (objects rules) i j p) ->
        (forall i j b, In ((i, j), b) d2 -> mask one b /\ (exists p, on b p) /\ forall p, on b p <-> fallsO (objects rules) i j p) ->
        (forall i j p, fallsO (objects rules) i j p -> exists b, In ((i, j), b) d2) -> forall x, In x d1 -> In x d2).
      { intros d1 d2 H1 H2 H3 [[i j] b] Hx. destruct (H1 i j b Hx) as (M & (p & Pp) & O). destruct (H3 i j p) as (b' & Hb'); [now apply O|].
        destruct (H2 i j b' Hb') as (M' & _ & O'). assert (b = b'); [|congruence]. apply (mask_ext one Ho b b' M M'). intros q. now rewrite O, O'. }
      apply NoDup_Permutation; [eapply NoDup_map_inv; eauto|eapply NoDup_map_inv; eauto|]. intros x. split; eapply G; eauto.
    + intros i j. split.
      * intros H. apply in_map_iff in H as ([e b] & E1 & H). cbn [fst] in E1. subst e. destruct (A i j b H) as (_ & (p & Hp') & O). exists p. apply F. now apply O.
      * intros (p & H). apply F in H. destruct (B i j p H) as (b & Hb). apply (in_map fst) in Hb. exact Hb.
    + intros i j b H p. destruct (A i j b H) as (_ & _ & O). rewrite <- F. apply O.
Qed.

(** With a second rule that matches everything the last one in increasing priority is taken for
    the default and the others are dropped: distinct priorities and a match-all rule of lowest
    priority are not enough. *)
Definition ex45 : list rule := [mk_rule 0 0 [] []; mk_rule 5 0 [("MPLS_BOS", (1, None))] [OUTPUT 1]; mk_rule 10 0 [] [OUTPUT 2]].
Lemma ex45_single : single_ok registry_init ex45.
Proof.
  split; [discriminate|]. split; [intros R [<-|[<-|[<-|[]]]]; now apply mk_match_ok|].
  split; [intros R S0 [<-|[<-|[<-|[]]]] [<-|[<-|[<-|[]]]]; reflexivity|].
  intros R [HR HL]. assert (E : priority (rcore R) <= 0) by (apply (HL (mk_rule 0 0 [] [])); now left).
  destruct HR as [<-|[<-|[<-|[]]]]; try (exfalso; revert E; vm_compute; congruence).
  split; [apply al_empty_ok|constructor].
Qed.
Lemma ex45_table : table_of_rules registry_init ex45.
Proof. destruct ex45_single as (A & B & C & _). split; [auto|]. split; auto. Qed.
Lemma ex45_inc : exists b, build_table_deps_incremental 30 1 (fun l => l) ex45 registry_init = (registry_init, Ok [((1, 2)%nat, b)]).
Proof.
  assert (Pt := table_of_plain _ _ ex45_table). destruct Pt as (_ & _ & Hm & _).
  destruct (attach_all_ok 30 1 ltac:(lia) eq_refl ltac:(lia) registry_init (objects ex45) Hm) as (ns & En & Mn & F).
  destruct ns as [|n0 [|n1 [|n2 [|n3 ns]]]]; try discriminate Mn.
  injection Mn as I0 R0 I1 R1 I2 R2. inversion F as [|? ? _ F1]; subst. inversion F1 as [|? ? [M1 A1] F2]; subst. inversion F2 as [|? ? [M2 A2] _]; subst.
  exists (binter (nbdd n1) (nbdd n2)). unfold build_table_deps_incremental, table_deps_incremental.
  change (sort_by prio_le_obj (objects ex45)) with (objects ex45).
  assert (Es : split_default (objects ex45) None [] = Ok (Some 2%nat, [1%nat])) by (vm_compute; reflexivity).
  rewrite Es, lift_bind. cbv iota beta.
  assert (Ea : attach 30 1 (objects ex45) = Ok [n0; n1; n2]) by exact En. rewrite Ea, lift_bind.
  destruct (mask_inter 1 ltac:(lia) _ _ M1 M2) as [Mi Oi].
  assert (C : cudd_bool (binter (nbdd n1) (nbdd n2)) = true).
  { apply (cudd_bool_on _ (proj1 Mi)). exists (bit420 true). apply Oi. rewrite A1, A2, R1, R2. split; [now apply bos_accepts|now apply def_accepts]. }
  assert (Nd : node_of [n0; n1; n2] 1 = Ok n1). { unfold node_of. cbn [find]. rewrite I0, I1. reflexivity. }
  assert (N2 : node_of [n0; n1; n2] 2 = Ok n2). { unfold node_of. cbn [find]. rewrite I0, I1, I2. reflexivity. }
  assert (Ins : dep_dag_insert 30 1 (fun l => l) [n0; n1; n2] 2 n1 ([], []) registry_init = (registry_init, Ok ([((1, 2)%nat, binter (nbdd n1) (nbdd n2))], [(2, [1])]%nat))).
  { unfold dep_dag_insert. cbn [find_affected List.length fst snd pget find rfold]. rewrite lift_bind. cbn [rfold]. rewrite lift_bind.
    unfold nodes_of. cbn [rfold]. rewrite N2. cbn [rbind app]. rewrite lift_bind. unfold add_parents_bdd, start_bdd, same_table.
    assert (T : (ntable n1 =? ntable n2) = true) by (unfold ntable; rewrite R1, R2; reflexivity). rewrite T.
    unfold sbind, sret. change (sort_by prio_ge [n2]) with [n2]. cbn [parents_bdd]. rewrite C, I1, I2.
    destruct (cudd_bool (bsub (nbdd n1) (nbdd n2))); reflexivity. }
  cbn [sfold]. rewrite Nd. assert (Run : forall s, (sdo new <- slift (Ok n1); dep_dag_insert 30 1 (fun l => l) [n0; n1; n2] 2 new s) registry_init = dep_dag_insert 30 1 (fun l => l) [n0; n1; n2] 2 n1 s registry_init) by reflexivity.
  unfold sbind at 1. unfold sbind at 1. rewrite Run, Ins. reflexivity.
Qed.
Theorem C45_second_match_all_refuted : exists rules,
  table_of_rules registry_init rules /\ nth_error rules 0 = Some (mk_rule 0 0 [] []) /\ match_all (mk_rule 0 0 [] []) /\
  (forall i T, nth_error rules i = Some T -> i <> 0%nat -> priority (rcore (mk_rule 0 0 [] [])) < priority (rcore T)) /\
  NoDup (map (fun R => priority (rcore R)) rules) /\
  exists d, build_table_deps_incremental 30 1 (fun l => l) rules registry_init = (registry_init, Ok d) /\
    (forall reg1 reg2 d', build_table_deps 30 1 rules reg1 = (reg2, Ok d') -> ~ Permutation d d') /\
    exists i j, In (i, j) (map fst d) /\ forall p, ~ falls rules i j p.
Proof.
  exists ex45. split; [exact ex45_table|]. split; [reflexivity|]. split; [intros p it []|]. split.
  { intros [|[|[|i]]] T H N; try (now elim N); [| |destruct i; discriminate H]; injection H as <-; vm_compute; reflexivity. }
  split. { vm_compute. repeat constructor; intros X; repeat (destruct X as [X|X]; try discriminate X); exact X. }
  destruct ex45_inc as (b & E). eexists. split; [exact E|].
  assert (No : forall p, ~ falls ex45 1 2 p).
  { intros p (R & S0 & HR & HS & _ & Lt & _). injection HR as <-. injection HS as <-. revert Lt. vm_compute. congruence. }
  split.
  - intros reg1 reg2 d' E' P. destruct (table_deps_gives 30 1 ltac:(lia) eq_refl ltac:(lia) registry_init _ (table_of_plain _ _ ex45_table) _ _ _ E') as (_ & A' & _).
    destruct (A' 1%nat 2%nat b) as (_ & (p & Hp) & O); [apply (Permutation_in _ P); now left|].
    apply (No p). apply (falls_objects ex45 1 2 p (proj2 (proj2 ex45_table))). now apply O.
  - exists 1%nat, 2%nat. split; [now left|exact No].
Qed.

(** ** C66 *)
(** From the default rule alone, inserting any duplicate-free list of other rules, in any
    order of priority, gives exactly the graph of the rules inserted so far. *)
Definition insert_all SHIFT one ord (rules : list rule) (k : nat) (todo : list nat) : st (list (edge * add)) :=
  sdo ns <- slift (attach SHIFT one (objects rules));
  sdo s <- sfold (fun s i => sdo new <- slift (node_of ns i); dep_dag_insert SHIFT one ord ns k new s) todo ([], []);
  sret (fst s).
Theorem C66_insertion_exact : forall SHIFT one ord r rules k D todo, 0 < SHIFT -> SHIFT mod 2 = 0 -> one <> 0 -> (forall l, Permutation (ord l) l) ->
  table_of_rules r rules -> nth_error rules k = Some D -> match_all D ->
  (forall i T, nth_error rules i = Some T -> i <> k -> priority (rcore D) < priority (rcore T)) -> separated rules ->
  NoDup todo -> ~ In k todo -> (forall i, In i todo -> (i < List.length rules)%nat) ->
  forall reg, exists d, insert_all SHIFT one ord rules k todo reg = (reg, Ok d) /\
    NoDup (map fst d) /\ (forall i j, In (i, j) (map fst d) <-> exists p, falls_among rules (k :: todo) i j p) /\
    (forall i j b, In ((i, j), b) d -> forall p, adenote b p <> 0 <-> falls_among rules (k :: todo) i j p).
Proof.
  intros SHIFT one ord r rules k D todo Hs Hs2 Ho Hp Ht HD Dall Dlow Hsep ND Nk Lt reg.
  destruct (table_of_plain r rules Ht) as (Hne & Hso & Hm & HT).
  destruct (attach_all_ok SHIFT one Hs Hs2 Ho r (objects rules) Hm) as (ns & En & Mn & F).
  assert (Ea : attach SHIFT one (objects rules) = Ok ns). { unfold attach. destruct (objects rules); [now elim Hne|exact En]. }
  assert (Nth : forall n, In n ns <-> exists R, nth_error rules (nid n) = Some R /\ In n ns /\ nrule n = R).
  { intros n. split; [|intros (R & _ & H & _); exact H]. intros H. exists (nrule n). split; [|auto]. apply objects_in. rewrite <- Mn. apply (in_map (fun n => (nid n, nrule n)) _ _ H). }
  assert (Get : forall i R, nth_error rules i = Some R -> exists n, In n ns /\ nid n = i /\ nrule n = R).
  { intros i R H. apply objects_in in H. rewrite <- Mn in H. apply in_map_iff in H as (n & E & H). exists n. split; [auto|]. now injection E. }
  assert (NDn : NoDup (map nid ns)).
  { assert (E : map nid ns = map fst (objects rules)) by (rewrite <- Mn, map_map; reflexivity). rewrite E. clear - Hso.
    induction Hso as [|x l S0 IH G]; cbn [map]; constructor; auto. intros X. apply in_map_iff in X as (y & E & Hy). rewrite Forall_forall in G. specialize (G y Hy). lia. }
  destruct (Get k D HD) as (nD & HnD & InD & RnD).
  rewrite Forall_forall in F.
  assert (Uniq : forall x y, In x ns -> In y ns -> nid x = nid y -> x = y) by (intros x y; apply (NoDup_map_eq nid ns NDn)).
  destruct (build_loop SHIFT one ord Ho Hp ns nD NDn) with (todo := todo) (L := [nD]) (d := @nil (edge * add)) (pte := @nil (nat * list nat)) (r := reg) as (L' & d & pte & E & Ex & InL); auto.
  - now apply Forall_forall.
  - intros x y Hx Hy. apply Nth in Hx as (R & HR & _ & ER), Hy as (S0 & HS & _ & ES). unfold ntable. rewrite ER, ES. apply (proj2 (proj2 Ht)); eapply nth_error_In; eauto.
  - intros x y p Hx Hy Ep Ox Oy. apply Uniq; auto. destruct (F x Hx) as [_ Fx], (F y Hy) as [_ Fy]. apply Fx in Ox. apply Fy in Oy.
    apply Nth in Hx as (R & HR & _ & ER), Hy as (S0 & HS & _ & ES). subst R S0.
    apply (Hsep _ _ _ _ p HR HS); auto. apply (proj2 (proj2 Ht)); eapply nth_error_In; eauto.
  - intros p. destruct (F nD HnD) as [_ Fx]. apply Fx. rewrite RnD. apply Dall.
  - intros x Hx Nx. apply Nth in Hx as (R & HR & Hx & ER). unfold nprio. rewrite ER, RnD. apply (Dlow (nid x)); auto. intros X. apply Nx. apply Uniq; auto. congruence.
  - intros i Hi. split.
    + specialize (Lt i Hi). apply nth_error_Some in Lt. destruct (nth_error rules i) as [R|] eqn:ER; [|now elim Lt]. destruct (Get i R ER) as (n & Hn & <- & _). now apply in_map.
    + cbn [map]. intros [X|[]]. apply Nk. congruence.
  - intros x [<-|[]]. exact HnD.
  - now left.
  - split; [constructor|intros i j b X; discriminate X| |intros c j; split; [intros []|intros X; now elim X]|intros j; constructor].
    intros i j p (R & S0 & [<-|[]] & [<-|[]] & _ & _ & X & _). lia.
  - assert (InX : forall n, In n L' <-> In n ns /\ In (nid n) (k :: todo)).
    { intros n. rewrite InL. cbn [In]. split.
      - intros [[<-|[]]|[A B]]; [split; [auto|left; congruence]|auto].
      - intros [A [B|B]]; [left; left; apply Uniq; auto; congruence|auto]. }
    assert (Acc : forall n p, In n ns -> (on (nbdd n) p <-> rule_accepts (nrule n) p)) by (intros n p Hn; apply (F n Hn)).
    assert (Ag : forall i j p, fallsN L' i j p <-> falls_among rules (k :: todo) i j p).
    { intros i j p. split.
      - intros (R & S0 & HR & HS & <- & <- & Lt1 & OR & OS & Mx). apply InX in HR as [HR IR]. apply InX in HS as [HS IS].
        split; [auto|]. split; [auto|]. exists (nrule R), (nrule S0).
        assert (HR' := HR). assert (HS' := HS). apply Nth in HR' as (R1 & NR & _ & <-). apply Nth in HS' as (S1 & NS & _ & <-).
        split; [auto|]. split; [auto|]. split; [apply (proj2 (proj2 Ht)); eapply nth_error_In; eauto|]. split; [exact Lt1|]. split; [now apply Acc|]. split; [now apply Acc|].
        intros m T Im NT Tt Pt At. destruct (Get m T NT) as (nT & HnT & <- & <-).
        assert (X : nprio nT <= nprio S0) by (apply Mx; [apply InX; auto|exact Pt|now apply Acc]).
        destruct (Z.eq_dec (nprio nT) (nprio S0)) as [Eq|Ne]; [right|left; unfold nprio in *; lia]. split; [exact Eq|].
        assert (nid nT = nid S0); [|lia]. apply (Hsep _ _ _ _ p NT NS); auto; [|now apply Acc]. apply (proj2 (proj2 Ht)); eapply nth_error_In; eauto.
      - intros (Ii & Ij & R & S0 & HR & HS & _ & Lt1 & AR & AS & Mx). destruct (Get i R HR) as (nR & HnR & <- & <-). destruct (Get j S0 HS) as (nS & HnS & <- & <-).
        exists nR, nS. split; [apply InX; auto|]. split; [apply InX; auto|]. split; [auto|]. split; [auto|]. split; [exact Lt1|]. split; [now apply Acc|]. split; [now apply Acc|].
        intros T HT' LtT OT. apply InX in HT' as [HT' IT]. assert (H := HT'). apply Nth in H as (T1 & NT & _ & <-).
        assert (Tt : table (rcore (nrule T)) = table (rcore (nrule nR))) by (apply (proj2 (proj2 Ht)); eapply nth_error_In; eauto).
        destruct (Mx (nid T) (nrule T) IT NT Tt LtT (proj1 (Acc _ _ HT') OT)) as [X|[X _]]; [apply Z.lt_le_incl; exact X|rewrite X; apply Z.le_refl]. }
    exists d. split; [|split; [apply (ex_keys _ _ _ _ Ex)|split]].
    + unfold insert_all. rewrite Ea, lift_bind. rewrite InD in E. etransitivity; [exact (bind_run _ _ _ _ _ E)|reflexivity].
    + intros i j. split.
      * intros H. apply in_map_iff in H as ([e b] & E1 & H). cbn [fst] in E1. subst e. apply eget_in in H; [|apply (ex_keys _ _ _ _ Ex)].
        destruct (ex_sound _ _ _ _ Ex i j b H) as (_ & (p & Hp') & O). exists p. apply Ag. now apply O.
      * intros (p & H). apply Ag in H. destruct (ex_complete _ _ _ _ Ex i j p H) as (b & Hb). apply eget_in in Hb; [|apply (ex_keys _ _ _ _ Ex)]. apply (in_map fst) in Hb. exact Hb.
    + intros i j b H p. apply eget_in in H; [|apply (ex_keys _ _ _ _ Ex)]. destruct (ex_sound _ _ _ _ Ex i j b H) as (_ & _ & O). rewrite <- Ag. apply O.
Qed.

(** the table of C43 without its first rule: two halves above a default *)
Definition ex66 : list rule := tl ex43.
Lemma ex66_table : table_of_rules registry_init ex66.
Proof.
  destruct ex43_table as (_ & B & C). split; [discriminate|]. split; [intros R HR; apply B; now right|intros R S0 HR HS; apply C; now right].
Qed.
Lemma ex66_separated : separated ex66.
Proof.
  intros i j R S0 p HR HS _ E AR AS. destruct i as [|[|[|i]]]; [| | |destruct i; discriminate HR]; (destruct j as [|[|[|j]]]; [| | |destruct j; discriminate HS]);
    injection HR as <-; injection HS as <-; try reflexivity; try (vm_compute in E; discriminate E);
    ((apply bos0_accepts in AR; [|reflexivity]) || (apply bos_accepts in AR; [|reflexivity])); ((apply bos0_accepts in AS; [|reflexivity]) || (apply bos_accepts in AS; [|reflexivity])); congruence.
Qed.
Lemma ex66_default : exists D, nth_error ex66 2 = Some D /\ match_all D /\
  forall i T, nth_error ex66 i = Some T -> i <> 2%nat -> priority (rcore D) < priority (rcore T) /\ ~ match_all T.
Proof.
  eexists. split; [reflexivity|]. split; [intros p it []|]. intros i T H N.
  destruct i as [|[|[|i]]]; [| |now elim N|destruct i; discriminate H]; injection H as <-; (split; [vm_compute; reflexivity|]); intros X.
  - specialize (X (bit420 true)). apply bos0_accepts in X; [|reflexivity]. discriminate X.
  - specialize (X (bit420 false)). apply bos_accepts in X; [|reflexivity]. discriminate X.
Qed.
Example C45_ex : table_of_rules registry_init ex66 /\ separated ex66 /\
  exists d, build_table_deps_incremental 30 1 (@rev nat) ex66 registry_init = (registry_init, Ok d) /\ In (0, 2)%nat (map fst d) /\ ~ In (0, 1)%nat (map fst d).
Proof.
  split; [exact ex66_table|]. split; [exact ex66_separated|]. destruct ex66_default as (D & HD & Dall & Dlow).
  destruct (C45_incremental_partial 30 1 (@rev nat) registry_init ex66 2 D ltac:(lia) eq_refl ltac:(lia) (fun l => Permutation_sym (Permutation_rev l)) ex66_table HD Dall Dlow ex66_separated registry_init)
    as (d & E & _ & _ & K & _).
  exists d. split; [exact E|]. assert (Fx : falls ex66 0 2 (bit420 false)).
  { eexists _, _. split; [reflexivity|]. split; [reflexivity|]. split; [reflexivity|]. split; [vm_compute; reflexivity|].
    split; [now apply bos0_accepts|]. split; [now apply def_accepts|].
    intros k T HT _ Lt AT. destruct k as [|[|[|k]]]; [| | |destruct k; discriminate HT]; injection HT as <-; try (vm_compute in Lt; discriminate Lt).
    right. split; [reflexivity|lia]. }
  split; [apply K; eauto|]. intros X. apply K in X as (p & R & S0 & HR & HS & _ & Lt & _). injection HR as <-. injection HS as <-. vm_compute in Lt. discriminate Lt.
Qed.
(** inserted in any order, here the second half alone: the first half is not in the graph *)
Example C66_ex : exists d, insert_all 30 1 (fun l => l) ex66 2 [1%nat] registry_init = (registry_init, Ok d) /\ ~ In (0, 2)%nat (map fst d) /\ In (1, 2)%nat (map fst d).
Proof.
  destruct ex66_default as (D & HD & Dall & Dlow).
  destruct (C66_insertion_exact 30 1 (fun l => l) registry_init ex66 2 D [1%nat] ltac:(lia) eq_refl ltac:(lia) (fun l => Permutation_refl l) ex66_table HD Dall (fun i T H N => proj1 (Dlow i T H N)) ex66_separated) with (reg := registry_init)
    as (d & E & _ & K & _).
  - repeat constructor. intros [].
  - intros [X|[]]. discriminate X.
  - intros i [<-|[]]. vm_compute. lia.
  - exists d. split; [exact E|]. split.
    + intros X. apply K in X as (p & [X|[X|[]]] & _); discriminate X.
    + apply K. exists (bit420 true). split; [now right; left|]. split; [now left|]. eexists _, _. split; [reflexivity|]. split; [reflexivity|]. split; [reflexivity|]. split; [vm_compute; reflexivity|].
      split; [now apply bos_accepts|]. split; [now apply def_accepts|].
      intros k T [<-|[<-|[]]] HT _ Lt AT; injection HT as <-; [right; split; [reflexivity|lia]|vm_compute in Lt; discriminate Lt].
Qed.

Print Assumptions C45_incremental_partial.
Print Assumptions C45_second_match_all_refuted.
Print Assumptions C66_insertion_exact.
