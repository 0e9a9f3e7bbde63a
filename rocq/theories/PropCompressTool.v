(** Theorems for C89: the command compress_ruleset and save_ruleset. *)
From Coq Require Import Lia Permutation Sorted.
From Coq Require Import ZifyBool ZifyNat.
From Verif Require Import SpecPipeline PriorityProofs PathProofs ExecProofs PerOutputProofs PropSingle SpecBdd FormatProofs MortonProofs WildcardProofs MatchProofs MergeProofs ActionProofs SingleTableProofs NormaliseProofs PropNormalise PropMerge PropDepsMulti PropDepsInd PropDepsPrefix
  DepsProofs DepsTable DepsAny DepsMultiProofs DepsIndProofs DepsPrefixProofs SimilarProofs PropCompress Fib SpecMisc MiscProofs PropMisc ToolProofs CompressTool SpecCompressTool CompressToolProofs PropCompressTotal CompressFib.
Local Open Scope string_scope.
Local Open Scope list_scope.
Local Open Scope Z_scope.
Local Opaque NB WC_FULLWC layout oxm_fields registry_init.

Lemma stand_for_le rules dep kept : stand_for rules dep kept -> (List.length kept <= List.length rules)%nat.
Proof.
  intros (d & (G1 & _ & G3) & P & _). rewrite (Permutation_length P). rewrite <- (seq_length (List.length rules) 0), <- (Permutation_length G1). clear - G3.
  induction d as [|[g l] d IH]; [apply le_n|]. cbn [map List.concat snd fst List.length]. rewrite app_length.
  destruct (G3 g l (or_introl eq_refl)) as (t & ->). cbn [List.length]. assert (X : (List.length (map fst d) <= List.length (List.concat (map snd d)))%nat) by (apply IH; intros; apply G3; now right). lia.
Qed.
Lemma stand_for_in rules dep kept : stand_for rules dep kept -> forall i, In i kept -> (i < List.length rules)%nat.
Proof.
  intros (d & (G1 & _ & G3) & P & _) i Hi. apply (Permutation_in _ P) in Hi. apply in_map_iff in Hi as ([g l] & E & Hl). cbn [fst] in E. subst g. destruct (G3 i l Hl) as (t & ->).
  assert (X : In i (seq 0 (List.length rules))); [|apply in_seq in X; lia]. apply (Permutation_in _ G1). apply in_concat. exists (i :: t). split; [apply in_map_iff; exists (i, i :: t); auto|now left].
Qed.
Lemma pick_length rules is : (forall i, In i is -> (i < List.length rules)%nat) -> List.length (pick rules is) = List.length is.
Proof.
  induction is as [|i is IH]; intros H; [reflexivity|]. cbn [pick flat_map]. fold (pick rules is). rewrite app_length, IH by (intros; apply H; now right).
  destruct (nth_error rules i) eqn:E; [reflexivity|]. apply nth_error_None in E. assert (X := H i (or_introl eq_refl)). lia.
Qed.
Lemma pick_in rules is R : In R (pick rules is) <-> exists i, In i is /\ nth_error rules i = Some R.
Proof.
  unfold pick. rewrite in_flat_map. split; intros (i & Hi & E); exists i; (split; [exact Hi|]); destruct (nth_error rules i); [destruct E as [<-|[]]; reflexivity|destruct E|injection E as ->; now left|discriminate E].
Qed.

Lemma writer_some fmt w : writer_of fmt = Some w -> In (w, fmt) [(WRyuJson, "ryu_json"); (WRyuPickle, "ryu_pickle"); (WPickle, "pickle"); (WOvs, "ovs"); (WText, "text")].
Proof.
  unfold writer_of. destruct (String.eqb_spec fmt "ryu_json") as [->|_]; [intros [= <-]; cbn; tauto|]. destruct (String.eqb_spec fmt "ryu_pickle") as [->|_]; [intros [= <-]; cbn; tauto|].
  destruct (String.eqb_spec fmt "pickle") as [->|_]; [intros [= <-]; cbn; tauto|]. destruct (String.eqb_spec fmt "ovs") as [->|_]; [intros [= <-]; cbn; tauto|].
  destruct (String.eqb_spec fmt "text") as [->|_]; [intros [= <-]; cbn; tauto|discriminate].
Qed.
Lemma writer_none fmt : writer_of fmt = None -> ~ In fmt OUTPUT_FORMATS.
Proof. intros E H. cbn in H. destruct H as [<-|[<-|[<-|[<-|[<-|[]]]]]]; discriminate E. Qed.

Section Main.
  Context {F : Type} (SHIFT one : Z) (ord : list nat -> list nat) (edge_ord : list edge -> list edge) (load : string -> st (list rule)) (write : writer -> list rule -> result F).
  Context (Hs : 0 < SHIFT) (Hs2 : SHIFT mod 2 = 0) (Ho : one <> 0) (Hord : forall l, Permutation (ord l) l) (Hed : forall l, Permutation (edge_ord l) l).
  Notation main := (compress_main SHIFT one ord edge_ord load write).

  (** What is printed: how many rules are loaded, how many the single table has, and from how many
      rules down to how many; never to more than there were, nor to none. What is printed last is the
      size of the single table of the rules kept, unless -s is given. *)
Theorem C89_sizes : forall o reg reg' run, main o reg = (reg', Ok run) ->
    exists r1 loaded r2 S, load (co_format o) reg = (r1, Ok loaded) /\ prepare o loaded r1 = (r2, Ok S) /\
      cr_loaded run = List.length loaded /\ cr_table run = (if co_single o then Some (List.length S) else None) /\
      Permutation (cr_ruleset run) S /\ cr_from_to run = (List.length S, List.length (cr_kept run)) /\
      (co_single o = true -> cr_last run = Ok None) /\
      (co_single o = false -> forall n, cr_last run = Ok n -> exists r3 r4 out, to_single_table (pick (cr_ruleset run) (cr_kept run)) true r3 = (r4, Ok out) /\ n = Some (List.length out)).
  Proof.
    intros o reg reg' run E. destruct (run_inv _ _ _ _ _ _ _ _ _ _ E) as (r1 & loaded & r2 & S & r3 & deps & d & E1 & E2 & E3 & E4 & E5 & E6 & E7 & E8 & E9 & r4 & E10).
    exists r1, loaded, r2, S. do 4 (split; [assumption|]). split; [rewrite E7; apply sort_perm|]. split; [exact E8|]. rewrite E7. unfold last_size in E10. split; intros C; rewrite C in E10.
    - now injection E10 as _ <-.
    - intros n En. destruct (to_single_table (pick (sort_ruleset S) (cr_kept run)) true r3) as [r5 [out|x]] eqn:E11; injection E10 as <- E10; rewrite En in E10; [|discriminate E10].
      injection E10 as <-. exists r3, r5, out. auto.
  Qed.

  (** Without --direct and for any format but "fib", with or without --bdd or --headerspace: the rules
      kept stand for all rules and keep the indirect dependencies. *)
Theorem C89_keeps_dependencies : forall o reg reg' run r1 loaded r2 S, co_direct o = false -> co_format o <> "fib" ->
    load (co_format o) reg = (r1, Ok loaded) -> prepare o loaded r1 = (r2, Ok S) -> reg_ok r2 -> ruleset_ok r2 S ->
    (forall R, In R S -> rule_ok r2 R /\ 0 <= table (rcore R) /\ plain_acts (orig_order (apply_actions (inst (rcore R))))) -> no_missing_table S ->
    main o reg = (reg', Ok run) ->
    Permutation (cr_ruleset run) S /\ stand_for (cr_ruleset run) (indirect_dep (cr_ruleset run)) (cr_kept run) /\ (List.length (cr_kept run) <= List.length S)%nat.
  Proof.
    intros o reg reg' run r1 loaded r2 S Hdir Hfmt El Ep Hreg Hrs Hall Hmiss E.
    destruct (run_inv _ _ _ _ _ _ _ _ _ _ E) as (r1' & loaded' & r2' & S' & r3 & deps & d & E1 & E2 & E3 & E4 & _ & _ & E7 & _).
    rewrite El in E1. injection E1 as <- <-. rewrite Ep in E2. injection E2 as <- <-. unfold tool_deps in E3. rewrite Hdir in E3. assert (Ef : String.eqb (co_format o) "fib" = false) by (now apply String.eqb_neq). rewrite Ef in E3.
    destruct (indirect_general _ _ _ _ _ _ _ _ E3) as (e0 & Ee & ->). assert (Hin : forall R, In R (sort_ruleset S) -> In R S) by (intros R; apply in_sort).
    assert (Hrs' : ruleset_ok r2 (sort_ruleset S)).
    { destruct Hrs as (A & B & C). split; [|split; [intros R HR; apply B, Hin, HR|intros R t HR; apply C, Hin, HR]]. intros X. apply A. assert (P := sort_perm S). rewrite X in P. now apply Permutation_nil in P. }
    destruct (C68_indirect_ruleset SHIFT one (match extra o with Some true => true | _ => false end) r2 (sort_ruleset S) Hs Hs2 Ho Hreg Hrs') as (r' & e & Ei & _ & Ie).
    { intros R HR. apply Hall, Hin, HR. } { intros R t HR X. destruct (Hmiss R t (Hin R HR) X) as (T & HT & Et). exists T. split; [now apply in_sort|exact Et]. }
    { intros R HR _. destruct (Hall R (Hin R HR)) as ((_ & [Hi _] & _) & _ & Hp). auto. }
    rewrite Ee in Ei. injection Ei as <- <-.
    assert (Ie' : forall i j, In (i, j) (edge_ord e0) <-> indirect_dep (sort_ruleset S) i j).
    { intros i j. split.
      - intros H. apply (Permutation_in _ (Hed e0)) in H. apply Ie in H as [(p & H)|(p & H)]; exists p; auto.
      - intros (p & [H|H]); apply (Permutation_in _ (Permutation_sym (Hed e0))); apply Ie; eauto. }
    assert (Hf : forward (sort_ruleset S) (edge_ord e0)).
    { apply indirect_forward; [|intros i j; apply Ie']. intros R t HR X. destruct Hrs' as (_ & _ & G). apply (G R t HR X). }
    destruct (stand_for_of ord r2 _ _ _ _ Hord (fun R HR => proj1 (Hall R (Hin R HR))) Hf E4) as [A B]. rewrite E7. split; [apply sort_perm|].
    split; [eapply stand_for_iff; [exact Ie'|exact A]|]. now rewrite (Permutation_length (sort_perm S)) in B.
  Qed.

  (** With --direct and for any format but "fib": the same for the direct dependencies, where no two
      rules of the same table and priority overlap and each table has a default rule. With
      --headerspace this is proved for rules without gotos. *)
Theorem C89_keeps_direct_dependencies : forall o reg reg' run r1 loaded r2 S, co_direct o = true -> co_format o <> "fib" ->
    load (co_format o) reg = (r1, Ok loaded) -> prepare o loaded r1 = (r2, Ok S) -> reg_ok r2 -> ruleset_ok r2 S ->
    (forall R, In R S -> rule_ok r2 R) -> separated S ->
    (forall R, In R S -> exists k D, nth_error S k = Some D /\ table (rcore D) = table (rcore R) /\ match_all D /\
       forall i T, nth_error S i = Some T -> table (rcore T) = table (rcore R) -> i <> k -> priority (rcore D) < priority (rcore T) /\ ~ match_all T) ->
    (co_headerspace o = true -> forall R, In R S -> goto_table (inst (rcore R)) = None) ->
    main o reg = (reg', Ok run) ->
    Permutation (cr_ruleset run) S /\ stand_for (cr_ruleset run) (direct_dep (cr_ruleset run)) (cr_kept run) /\ (List.length (cr_kept run) <= List.length S)%nat.
  Proof.
    intros o reg reg' run r1 loaded r2 S Hdir Hfmt El Ep Hreg Hrs Hall Hsep Hdef Hhs E.
    destruct (run_inv _ _ _ _ _ _ _ _ _ _ E) as (r1' & loaded' & r2' & S' & r3 & deps & d & E1 & E2 & E3 & E4 & _ & _ & E7 & _).
    rewrite El in E1. injection E1 as <- <-. rewrite Ep in E2. injection E2 as <- <-. unfold tool_deps in E3. rewrite Hdir in E3. assert (Ef : String.eqb (co_format o) "fib" = false) by (now apply String.eqb_neq). rewrite Ef in E3.
    assert (Hin : forall R, In R (sort_ruleset S) -> In R S) by (intros R; apply in_sort). assert (Hperm := sort_perm S).
    assert (Pos : exists f, (forall i j : nat, f i = f j -> i = j) /\ forall n, nth_error (sort_ruleset S) n = nth_error S (f n)).
    { destruct (proj1 (Permutation_nth_error S (sort_ruleset S)) (Permutation_sym Hperm)) as (_ & f & Hi & Hf). exists f. split; [exact Hi|exact Hf]. }
    destruct Pos as (f & Inj & Hf).
    assert (Hrs' : ruleset_ok r2 (sort_ruleset S)).
    { destruct Hrs as (A & B & C). split; [|split; [intros R HR; apply B, Hin, HR|intros R t HR; apply C, Hin, HR]]. intros X. apply A. assert (P := Hperm). rewrite X in P. now apply Permutation_nil in P. }
    assert (Hsep' : separated (sort_ruleset S)).
    { intros i j R T p HR HT Et Epr AR AT. rewrite Hf in HR, HT. apply Inj. eapply Hsep; eauto. }
    assert (Hdef' : forall R, In R (sort_ruleset S) -> exists k D, nth_error (sort_ruleset S) k = Some D /\ table (rcore D) = table (rcore R) /\ match_all D /\
       forall i T, nth_error (sort_ruleset S) i = Some T -> table (rcore T) = table (rcore R) -> i <> k -> priority (rcore D) < priority (rcore T) /\ ~ match_all T).
    { intros R HR. destruct (Hdef R (Hin R HR)) as (k & D & A & B & C & G). assert (HD : In D (sort_ruleset S)) by (apply in_sort; eapply nth_error_In; exact A).
      destruct (In_nth_error _ _ HD) as (k' & K'). exists k', D. split; [exact K'|]. split; [exact B|]. split; [exact C|]. intros i T HT Et Ni. rewrite Hf in HT, K'.
      apply (G (f i) T HT Et). intros X. apply Ni. assert (Hk : f k' = k).
      { destruct (Nat.eq_dec (f k') k) as [Y|Y]; [exact Y|]. exfalso. destruct (G (f k') D K' B Y) as [Z0 _]. lia. }
      apply Inj. congruence. }
    destruct (C67_direct_ruleset_incremental SHIFT one ord r2 (sort_ruleset S) Hs Hs2 Ho Hord Hreg Hrs' Hsep' Hdef') as (r' & e & Ei & _ & Ie).
    assert (Ed : deps = e).
    { unfold extra in E3. destruct (co_headerspace o) eqn:Eh.
      - cbn [direct_deps] in E3. rewrite (hs_same_edges SHIFT one (table_deps_incremental SHIFT one ord) (sort_ruleset S) r2 r' e) in E3; [now injection E3 as <- <-| |exact Ei].
        intros R HR. now apply Hhs, Hin.
      - destruct (co_bdd o); cbn [direct_deps] in E3; change (fun objs => table_deps_incremental SHIFT one ord objs) with (table_deps_incremental SHIFT one ord) in E3; rewrite Ei in E3; now injection E3 as <- <-. }
    subst deps.
    assert (Ie' : forall i j, In (i, j) e <-> direct_dep (sort_ruleset S) i j).
    { intros i j. rewrite Ie. split; [intros [(p & H)|(p & H)]; exists p; auto|intros (p & [H|H]); eauto]. }
    assert (Hfw : forward (sort_ruleset S) e).
    { apply direct_forward; [|intros i j; apply Ie']. intros R t HR X. destruct Hrs' as (_ & _ & G). apply (G R t HR X). }
    destruct (stand_for_of ord r2 _ _ _ _ Hord (fun R HR => Hall R (Hin R HR)) Hfw E4) as [A B]. rewrite E7. split; [exact Hperm|].
    split; [eapply stand_for_iff; [exact Ie'|exact A]|]. now rewrite (Permutation_length Hperm) in B.
  Qed.

  (** --input-format fib with --bdd or --headerspace needs --direct: the command ends with an
      exception. *)
Theorem C89_fib_extra : forall o reg reg' run, co_format o = "fib" -> co_direct o = false -> co_bdd o = true \/ co_headerspace o = true -> main o reg <> (reg', Ok run).
  Proof.
    intros o reg reg' run Hf Hd Hx E. destruct (run_inv _ _ _ _ _ _ _ _ _ _ E) as (r1 & loaded & r2 & S & r3 & deps & d & E1 & E2 & E3 & E4 & _).
    unfold tool_deps in E3. rewrite Hd, Hf in E3. change (String.eqb "fib" "fib") with true in E3.
    assert (exists b, extra o = Some b) as (b & Eb) by (unfold extra; destruct (co_headerspace o), (co_bdd o), Hx; try discriminate; eauto). rewrite Eb in E3.
    destruct (sort_ruleset S) as [|R T] eqn:Es; [|rewrite <- Es in E3; eapply indirect_prefix_extra in E3; [exact E3|rewrite Es; discriminate]].
    assert (Ed : deps = []).
    { destruct b; cbn in E3; [discriminate E3|]. injection E3 as _ <-. assert (X := Hed []). apply Permutation_sym, Permutation_nil in X. exact X. }
    subst deps. vm_compute in E4. discriminate E4.
  Qed.

  (** A routing table of distinct routes with their host bits zero, among them the default route:
      the command succeeds (without --bdd and --headerspace, or with --direct), with and without -s;
      the rules kept stand for the prefixes and keep the relation "lies in", or with --direct "is the
      longest that encloses". The size printed last is the number of rules kept. *)
Theorem C89_fib : forall o reg rs lines, co_format o = "fib" -> (co_direct o = true \/ (co_bdd o = false /\ co_headerspace o = false)) ->
    load "fib" reg = ruleset_from_fib lines reg -> reg_ok reg ->
    Forall2 route_line rs lines -> (forall r, In r rs -> weigh 256 (ro_octets r) mod 2 ^ (32 - ro_len r) = 0) ->
    NoDup (map prefix_of rs) -> In (0, 0) (map prefix_of rs) ->
    (co_output o = true -> forall w l, exists f, write w l = Ok f) ->
    exists reg' run P, main o reg = (reg', Ok run) /\
      Permutation P (map prefix_of rs) /\ Forall2 (fun R q => ipv4_prefix R (fst q) (snd q)) (cr_ruleset run) P /\
      stand_for (cr_ruleset run) (if co_direct o then longest P else lies_in P) (cr_kept run) /\
      cr_loaded run = List.length rs /\ cr_from_to run = (List.length rs, List.length (cr_kept run)) /\
      cr_last run = Ok (if co_single o then None else Some (List.length (cr_kept run))).
  Proof.
    intros o reg rs lines Hf Hx Hload Hreg Hl Can ND I0 Hw. destruct (fib_rules_prefix reg rs lines Hreg Hl Can) as (loaded & El & Fp & Hr). rewrite El in Hload.
    assert (Hfc : forall R, In R loaded -> fib_core reg (rcore R)) by (intros R HR; exact (Hr R HR)).
    assert (Len : List.length loaded = List.length rs) by (rewrite <- (map_length prefix_of rs); clear - Fp; induction Fp; cbn [List.length]; congruence).
    assert (Pri : forall L Q, Forall2 (fun R q => ipv4_prefix R (fst q) (snd q)) L Q -> (forall R, In R L -> 0 <= priority (rcore R) <= 32) /\ (In (0, 0) Q -> exists D, In D L /\ priority (rcore D) = 0)).
    { clear. intros L Q H. induction H as [|R q L Q H F [IH1 IH2]]; [split; [intros R []|intros []]|]. split.
      - intros R' [<-|HR]; [|now apply IH1]. destruct H as (A & B & _). lia.
      - intros [->|X]; [exists R; split; [now left|]; destruct H as (A & B & _); exact B|]. destruct (IH2 X) as (D & A & B). exists D. split; [now right|exact B]. }
    destruct (Pri loaded _ Fp) as [PriL DefL].
    assert (NeL : loaded <> []) by (intros X; rewrite X in Len; destruct rs; [destruct I0|discriminate Len]).
    assert (Prep : exists S, prepare o loaded reg = (reg, Ok S) /\ Permutation (map rcore S) (map rcore loaded)).
    { unfold prepare. destruct (co_single o); [|exists loaded; split; [reflexivity|apply Permutation_refl]].
      destruct (single_one loaded false reg NeL) as (out & A & B); [|exact (DefL I0)|eauto]. intros R HR. split; [apply (Hfc R HR)|]. assert (X := PriL R HR). lia. }
    destruct Prep as (S & Ep & Pc). set (T := sort_ruleset S). assert (Pt : Permutation (map rcore T) (map rcore loaded)) by (eapply Permutation_trans; [apply Permutation_map, sort_perm|exact Pc]).
    destruct (cores_prefix T loaded _ Pt Fp) as (P & PP & FP).
    assert (HP : prefix_table T P).
    { split; [exact FP|]. split; [eapply Permutation_NoDup; [apply Permutation_sym, PP|exact ND]|]. eapply Permutation_in; [apply Permutation_sym, PP|exact I0]. }
    assert (HT : forall R, In R T -> fib_core reg (rcore R)).
    { intros R HR. assert (X : In (rcore R) (map rcore loaded)) by (apply (Permutation_in _ Pt); now apply in_map). apply in_map_iff in X as (R' & E' & HR'). rewrite <- E'. now apply Hfc. }
    destruct (Pri T _ FP) as [PriT DefT]. assert (Fl := fib_flat reg T HT). assert (Mk : matches_ok reg T) by (intros R HR; apply (HT R HR)).
    assert (NeT : T <> []) by (intros X; rewrite X in Pt; apply Permutation_nil in Pt; destruct loaded; [congruence|discriminate Pt]).
    assert (Deps : exists r3 deps, tool_deps SHIFT one ord edge_ord o T reg = (r3, Ok deps) /\ (forall i j, In (i, j) deps <-> (if co_direct o then longest P else lies_in P) i j)).
    { unfold tool_deps. rewrite Hf. change (String.eqb "fib" "fib") with true. destruct (co_direct o) eqn:Ed.
      - apply direct_prefix_runs; auto.
      - destruct Hx as [Hx|[H1 H2]]; [discriminate Hx|]. assert (Ex : extra o = None) by (unfold extra; now rewrite H1, H2). rewrite Ex.
        destruct (indirect_prefix_runs SHIFT one edge_ord T reg P Hed Mk Fl HP) as (e & A & B). exists reg, e. auto. }
    destruct Deps as (r3 & deps & Ed & Kd).
    assert (Fw : forward T deps). { apply (prefix_forward T P deps Fl HP). intros i j H. apply Kd in H. destruct (co_direct o); [apply H|exact H]. }
    assert (Ch : chained deps). { destruct (co_direct o); [eapply longest_chained|eapply lies_chained]; eauto. }
    assert (Ok0 : forall R, In R T -> rule_ok reg R) by (intros R HR; apply fib_rule_ok, HT, HR).
    destruct (C90_chained reg T deps NeT Ok0) as (res & d & Ec); [intros R R' HR HR'; eapply fib_not_mixed; eauto|exact Fw|exact Ch|].
    destruct (stand_for_of ord reg T deps res d Hord Ok0 Fw (Ec ord)) as [St _]. assert (St' : stand_for T (if co_direct o then longest P else lies_in P) res) by (eapply stand_for_iff; [exact Kd|exact St]).
    assert (Sv : exists f, (if co_output o then save_ruleset write T (co_output_format o) else Ok None) = Ok f).
    { destruct (co_output o); [|eauto]. unfold save_ruleset. destruct (writer_of (co_output_format o)) as [w|]; [|eauto]. destruct (Hw eq_refl w T) as (f & ->). cbn [rbind]. eauto. }
    destruct Sv as (f & Ef).
    assert (Last : exists r4, last_size o (pick T res) r3 = (r4, Ok (Ok (if co_single o then None else Some (List.length res))))).
    { unfold last_size. destruct (co_single o); [eauto|]. assert (Inn : forall R, In R (pick T res) -> In R T) by (intros R HR; apply pick_in in HR as (i & _ & HR); eapply nth_error_In; exact HR).
      assert (Dk : exists D, In D (pick T res) /\ priority (rcore D) = 0).
      { destruct (DefT (proj2 (proj2 HP))) as (D & HD & PD). destruct (In_nth_error _ _ HD) as (k & Hk). destruct St as (dd & _ & _ & U & Si & _).
        destruct (U k) as (g & [Hg Tg] & _); [apply nth_error_Some; congruence|]. destruct (proj1 (Si g k Tg)) as (R & R' & A & B & ((_ & Pr & _) & _)). assert (R' = D) by congruence. subst R'.
        exists R. split; [apply pick_in; eauto|congruence]. }
      destruct (single_one (pick T res) true r3) as (out & Eo & Po).
      - intros X. destruct Dk as (D & HD & _). rewrite X in HD. destruct HD.
      - intros R HR. split; [apply Fl, Inn, HR|]. assert (X := PriT R (Inn R HR)). lia.
      - exact Dk.
      - rewrite Eo. exists r3. apply Permutation_length in Po. rewrite !map_length in Po. rewrite Po, (pick_length T res); [reflexivity|]. eapply stand_for_in. exact St. }
    destruct Last as (r4 & El4).
    eexists r4, _, P. split.
    { unfold compress_main. unfold sbind at 1. rewrite Hf, Hload. unfold sbind at 1. rewrite Ep. cbv zeta. fold T. unfold sbind at 1. rewrite Ed. unfold sbind at 1, slift at 1. rewrite Ec. unfold sbind at 1, slift at 1. rewrite Ef.
      unfold sbind at 1. cbn [fst]. rewrite El4. reflexivity. }
    cbn [cr_ruleset cr_kept cr_loaded cr_from_to cr_last]. split; [exact PP|]. split; [exact FP|]. split; [exact St'|]. split; [exact Len|]. split; [|reflexivity].
    f_equal. apply Permutation_length in Pt. rewrite !map_length in Pt. now rewrite Pt.
  Qed.

  (** What --output writes: a permutation of all the rules, those of line 106 before the compression,
      with the writer of the format. It forwards as they do. *)
Theorem C89_saved : forall o reg reg' run, co_output o = true -> main o reg = (reg', Ok run) ->
    exists r1 loaded r2 S, load (co_format o) reg = (r1, Ok loaded) /\ prepare o loaded r1 = (r2, Ok S) /\ Permutation (cr_ruleset run) S /\
      (forall drop p out, executes drop (cr_ruleset run) p out <-> executes drop S p out) /\
      match cr_file run with
      | Some f => exists w, write w (cr_ruleset run) = Ok f /\ In (w, co_output_format o) [(WRyuJson, "ryu_json"); (WRyuPickle, "ryu_pickle"); (WPickle, "pickle"); (WOvs, "ovs"); (WText, "text")]
      | None => ~ In (co_output_format o) OUTPUT_FORMATS
      end.
  Proof.
    intros o reg reg' run Hout E. destruct (run_inv _ _ _ _ _ _ _ _ _ _ E) as (r1 & loaded & r2 & S & r3 & deps & d & E1 & E2 & E3 & E4 & _ & _ & E7 & _ & E9 & _).
    exists r1, loaded, r2, S. split; [exact E1|]. split; [exact E2|]. rewrite E7. split; [apply sort_perm|]. split; [intros; apply sort_executes|].
    rewrite Hout in E9. unfold save_ruleset in E9. destruct (writer_of (co_output_format o)) as [w|] eqn:Ew.
    - destruct (write w (sort_ruleset S)) as [f|] eqn:Ef; [|discriminate E9]. cbn [rbind] in E9. assert (X : cr_file run = Some f) by congruence. rewrite X. exists w. split; [exact Ef|].
      now apply writer_some.
    - assert (X : cr_file run = None) by congruence. rewrite X. now apply writer_none.
  Qed.
  (** With -s the rules compressed and written are a single table that forwards as the pipeline loaded,
      where the tables have no ties and a table with a rule of priority 0 matches every packet. *)
Theorem C89_single : forall o reg reg' run r1 loaded pick, co_single o = true -> load (co_format o) reg = (r1, Ok loaded) ->
    reg_ok r1 -> Forall (good_rule r1 false) loaded -> total_tables loaded -> ForallOrdPairs (no_tie overlap) loaded ->
    main o reg = (reg', Ok run) ->
    forall p, exists c, first_match (cr_ruleset run) p (Some c) /\ (exists out, executes false loaded p out) /\
      (forall l out, full_actions (inst (rcore c)) = Ok l -> executes false loaded p out -> no_pbb_pair out -> same_effect pick out (al_iter l)).
  Proof.
    intros o reg reg' run r1 loaded pk Hsi El Hreg Hg Ht Hn E p. destruct (run_inv SHIFT one ord edge_ord load write o reg reg' run E) as (r1' & loaded' & r2 & S & r3 & deps & d & E1 & E2 & E3 & E4 & E5 & E6 & E7 & E8 & E9 & r4 & E10).
    rewrite El in E1. injection E1 as <- <-. unfold prepare in E2. rewrite Hsi in E2. destruct (C38_single_table_partial pk loaded false r1 r2 S Hreg Hg Ht E2 p) as (c & Fc & H).
    destruct (C40_priority_order_partial loaded false r1 r2 S Hreg Hg Hn E2) as [_ X]. exists c. split; [|exact H]. rewrite E7. now apply X.
  Qed.
End Main.

(** The file does not have the compressed ruleset, which the help of --output promises: here there
    are five rules, three of them are kept, and the file has all five. *)
Definition ex89_opts : coptions := mkCoptions "ovs" false false false false true "text".
Definition ex89_load (fmt : string) : st (list rule) := sret (rev ex90).
Definition ex89_write (w : writer) (l : list rule) : result (list rule) := Ok l.
Definition ex89_run := compress_main 30 1 (fun l => l) (fun l => l) ex89_load ex89_write ex89_opts registry_init.
Theorem C89_output_compressed_refuted : ~ (forall (write : writer -> list rule -> result (list rule)) load o reg reg' run, co_output o = true ->
  compress_main 30 1 (fun l => l) (fun l => l) load write o reg = (reg', Ok run) -> forall w f, writer_of (co_output_format o) = Some w ->
  write w (pick (cr_ruleset run) (cr_kept run)) = Ok f -> cr_file run = Some f).
Proof.
  intros H. destruct ex89_run as [reg' [run|e]] eqn:E.
  - assert (X := H ex89_write ex89_load ex89_opts registry_init reg' run eq_refl E WText _ eq_refl eq_refl).
    assert (Y : match snd ex89_run with Ok run => match cr_file run with Some f => Nat.eqb (List.length f) (List.length (pick (cr_ruleset run) (cr_kept run))) | None => true end | Err _ => true end = false) by (vm_compute; reflexivity).
    rewrite E in Y. cbn [snd] in Y. rewrite X in Y. now rewrite Nat.eqb_refl in Y.
  - assert (Y : is_ok (snd ex89_run) = true) by (vm_compute; reflexivity). rewrite E in Y. discriminate Y.
Qed.

(** ** Examples *)
Lemma ex89_rev R : In R (rev ex90) -> In R ex90.
Proof. intros H. now apply in_rev. Qed.
(** the general case *)
Example C89_ex : exists reg' run, ex89_run = (reg', Ok run) /\ cr_loaded run = 5%nat /\ cr_from_to run = (5, 3)%nat /\ cr_last run = Ok (Some 3%nat) /\
  stand_for (cr_ruleset run) (indirect_dep (cr_ruleset run)) (cr_kept run) /\ (exists f, cr_file run = Some f /\ List.length f = 5%nat).
Proof.
  destruct ex89_run as [reg' [run|e]] eqn:E; [|assert (Y : is_ok (snd ex89_run) = true) by (vm_compute; reflexivity); rewrite E in Y; discriminate Y].
  exists reg', run. split; [reflexivity|].
  assert (V : match snd ex89_run with Ok run => (cr_loaded run, cr_from_to run, cr_last run, match cr_file run with Some f => List.length f | None => 0%nat end) | Err _ => (0%nat, (0, 0)%nat, Ok None, 0%nat) end = (5%nat, (5, 3)%nat, Ok (Some 3%nat), 5%nat)) by (vm_compute; reflexivity).
  rewrite E in V. cbn [snd] in V. assert (V1 : cr_loaded run = 5%nat) by congruence. assert (V2 : cr_from_to run = (5, 3)%nat) by congruence. assert (V3 : cr_last run = Ok (Some 3%nat)) by congruence.
  split; [exact V1|]. split; [exact V2|]. split; [exact V3|]. split.
  - assert (H1 : ruleset_ok registry_init (rev ex90)) by (destruct ex90_ruleset as (A & B & C); split; [discriminate|]; split; [intros R HR; apply B, ex89_rev, HR|intros R t HR; apply C, ex89_rev, HR]).
    assert (H2 : forall R, In R (rev ex90) -> rule_ok registry_init R /\ 0 <= table (rcore R) /\ plain_acts (orig_order (apply_actions (inst (rcore R))))).
    { intros R HR. apply ex89_rev in HR. split; [now apply ex90_ok|]. split; [repeat (destruct HR as [<-|HR]; [vm_compute; discriminate|]); destruct HR|]. apply ex90_proper in HR; apply HR. }
    assert (H3 : no_missing_table (rev ex90)) by (intros R t HR X; apply ex89_rev in HR; exfalso; repeat (destruct HR as [<-|HR]; [discriminate X|]); destruct HR).
    assert (Q0 : "ovs" <> "fib") by discriminate. assert (Q1 : 0 < 30) by lia. assert (Q2 : 1 <> 0) by lia.
    exact (proj1 (proj2 (C89_keeps_dependencies 30 1 (fun l => l) (fun l => l) ex89_load ex89_write Q1 eq_refl Q2 (fun l => Permutation_refl l) (fun l => Permutation_refl l)
      ex89_opts registry_init reg' run registry_init (rev ex90) registry_init (rev ex90) eq_refl Q0 eq_refl eq_refl reg_init_ok H1 H2 H3 E))).
  - destruct (cr_file run) as [f|]; [|discriminate V]. exists f. split; [reflexivity|]. congruence.
Qed.
(** direct dependencies *)
Lemma port_constant R v b : In ("IN_PORT", (v, None)) (items_view (m_items (rmatch (rcore R)))) -> rule_accepts R (fun _ => b) -> b = Z.testbit v 0.
Proof.
  intros HR AR. assert (X : exists s, find (fun s => String.eqb (sl_name s) "IN_PORT" && (0 <? sl_bits s)) layout = Some s) by (vm_compute; eauto).
  destruct X as (s & X). apply find_some in X as [X1 X2]. apply andb_true_iff in X2 as [X2 X3]. apply String.eqb_eq in X2. apply Z.ltb_lt in X3. exact (AR _ HR s X1 X2 0 (conj (Z.le_refl 0) X3) eq_refl).
Qed.
Lemma ex90_default R : In R ex90 -> exists k D, nth_error ex90 k = Some D /\ table (rcore D) = table (rcore R) /\ match_all D /\
  forall i T, nth_error ex90 i = Some T -> table (rcore T) = table (rcore R) -> i <> k -> priority (rcore D) < priority (rcore T) /\ ~ match_all T.
Proof.
  intros HR. exists 4%nat. eexists. split; [reflexivity|]. split; [repeat (destruct HR as [<-|HR]; [reflexivity|]); destruct HR|]. split; [intros p it []|].
  intros i T HT _ N. destruct i as [|[|[|[|[|i]]]]]; [| | | |now elim N|destruct i; discriminate HT]; injection HT as <-; (split; [vm_compute; reflexivity|]); intros X.
  - assert (Y := fun H => port_constant _ 0 true H (X _)). assert (Z0 : true = Z.testbit 0 0) by (apply Y; now left). discriminate Z0.
  - assert (Y := fun H => port_constant _ 1 false H (X _)). assert (Z0 : false = Z.testbit 1 0) by (apply Y; now left). discriminate Z0.
  - assert (Y := fun H => port_constant _ 0 true H (X _)). assert (Z0 : true = Z.testbit 0 0) by (apply Y; now left). discriminate Z0.
  - assert (Y := fun H => port_constant _ 1 false H (X _)). assert (Z0 : false = Z.testbit 1 0) by (apply Y; now left). discriminate Z0.
Qed.
Definition ex90_load (fmt : string) : st (list rule) := sret ex90.
Definition ex89_direct : coptions := mkCoptions "ovs" false true false false false "text".
Example C89_ex_direct : exists reg' run, compress_main 30 1 (fun l => l) (fun l => l) ex90_load ex89_write ex89_direct registry_init = (reg', Ok run) /\
  stand_for (cr_ruleset run) (direct_dep (cr_ruleset run)) (cr_kept run).
Proof.
  set (o := ex89_direct). assert (Q0 : "ovs" <> "fib") by discriminate. assert (Q1 : 0 < 30) by lia. assert (Q2 : 1 <> 0) by lia.
  assert (Es : sort_ruleset ex90 = ex90) by (vm_compute; reflexivity).
  destruct (C67_direct_ruleset_incremental 30 1 (fun l => l) registry_init ex90 Q1 eq_refl Q2 (fun l => Permutation_refl l) reg_init_ok ex90_ruleset ex90_separated ex90_default) as (r' & e & E & _ & K).
  assert (NE : forall i j p, ~ enters ex90 i j p) by (intros i j p (R & S & t & q & A1 & _ & A3 & _); apply nth_error_In in A1; repeat (destruct A1 as [<-|A1]; [discriminate A3|]); destruct A1).
  destruct (C90_nested_direct registry_init ex90 e) as (res & d & Ec); [discriminate|exact ex90_ok|exact ex90_plain|exact ex90_nested| |].
  { intros i j H. apply K in H as [H|(p & H)]; [exact H|]. now elim (NE i j p). }
  assert (L : exists r4 x, last_size o (pick ex90 res) r' = (r4, Ok x)) by (unfold last_size; cbn [co_single o ex89_direct]; destruct (to_single_table (pick ex90 res) true r') as [r4 [out|x]]; eauto).
  destruct L as (r4 & x & L).
  assert (M : exists run, compress_main 30 1 (fun l => l) (fun l => l) ex90_load ex89_write o registry_init = (r4, Ok run)).
  { unfold compress_main. unfold sbind at 1, ex90_load at 1, sret at 1. unfold sbind at 1. unfold prepare. cbn [co_single o ex89_direct]. unfold sret at 1. cbv zeta. rewrite Es. unfold sbind at 1, tool_deps. cbn [co_direct co_format o ex89_direct].
    change (String.eqb "ovs" "fib") with false. unfold extra. cbn [co_headerspace co_bdd o ex89_direct direct_deps]. change (fun objs => table_deps_incremental 30 1 (fun l => l) objs) with (table_deps_incremental 30 1 (fun l => l)).
    rewrite E. unfold sbind at 1, slift at 1. rewrite Ec. unfold sbind at 1, slift at 1. cbn [co_output o ex89_direct]. unfold sbind. cbn [fst]. rewrite L. eexists. reflexivity. }
  destruct M as (run & M). exists r4, run. split; [exact M|].
  assert (H2 : co_headerspace o = true -> forall R, In R ex90 -> goto_table (inst (rcore R)) = None) by discriminate.
  exact (proj1 (proj2 (C89_keeps_direct_dependencies 30 1 (fun l => l) (fun l => l) ex90_load ex89_write Q1 eq_refl Q2 (fun l => Permutation_refl l) (fun l => Permutation_refl l)
    o registry_init r4 run registry_init ex90 registry_init ex90 eq_refl Q0 eq_refl eq_refl reg_init_ok ex90_ruleset ex90_ok ex90_separated ex90_default H2 M))).
Qed.
(** a routing table *)
Definition fib_opts (direct single : bool) : coptions := mkCoptions "fib" single direct false false false "text".
Example C89_ex_fib : forall direct single, exists reg' run P, compress_main 30 1 (fun l => l) (fun l => l) (fun _ => ruleset_from_fib fib_lines) ex89_write (fib_opts direct single) registry_init = (reg', Ok run) /\
  Permutation P [(0, 0); (167772160, 8); (167837696, 16)] /\ stand_for (cr_ruleset run) (if direct then longest P else lies_in P) (cr_kept run).
Proof.
  intros direct single. assert (Q1 : 0 < 30) by lia. assert (Q2 : 1 <> 0) by lia.
  assert (H1 : forall r, In r fib_routes -> weigh 256 (ro_octets r) mod 2 ^ (32 - ro_len r) = 0) by (intros r [<-|[<-|[<-|[]]]]; vm_compute; reflexivity).
  assert (H2 : map prefix_of fib_routes = [(0, 0); (167772160, 8); (167837696, 16)]) by (vm_compute; reflexivity).
  assert (H3 : NoDup (map prefix_of fib_routes)) by (rewrite H2; repeat constructor; cbn; intuition discriminate).
  assert (H4 : In (0, 0) (map prefix_of fib_routes)) by (rewrite H2; now left).
  assert (H5 : co_output (fib_opts direct single) = true -> forall w l, exists f, ex89_write w l = Ok f) by discriminate.
  destruct (C89_fib 30 1 (fun l => l) (fun l => l) (fun _ => ruleset_from_fib fib_lines) ex89_write Q1 eq_refl Q2 (fun l => Permutation_refl l) (fun l => Permutation_refl l)
    (fib_opts direct single) registry_init fib_routes fib_lines eq_refl (or_intror (conj eq_refl eq_refl)) eq_refl reg_init_ok fib_lines_ok H1 H3 H4 H5) as (reg' & run & P & E & PP & _ & St & _).
  exists reg', run, P. split; [exact E|]. rewrite H2 in PP. split; [exact PP|]. exact St.
Qed.
(** the exception *)
(** Two tables, of which the second has no default rule, made into one. *)
Definition ex89_single : coptions := mkCoptions "ovs" true false false false true "ovs".
Example C89_ex_single : exists reg' run, compress_main 30 1 (fun l => l) (fun l => l) (fun _ => sret ex38) ex89_write ex89_single registry_init = (reg', Ok run) /\
  cr_loaded run = 3%nat /\ cr_from_to run = (3, 3)%nat /\ forall p, exists c, first_match (cr_ruleset run) p (Some c).
Proof.
  assert (V : match compress_main 30 1 (fun l => l) (fun l => l) (fun _ => sret ex38) ex89_write ex89_single registry_init with (_, Ok run) => (cr_loaded run, cr_from_to run) | _ => (O, (O, O)) end = (3, (3, 3))%nat) by (vm_compute; reflexivity).
  destruct (compress_main 30 1 (fun l => l) (fun l => l) (fun _ => sret ex38) ex89_write ex89_single registry_init) as [reg' [run|]] eqn:E; [|discriminate V].
  exists reg', run. injection V as V1 V2. split; [reflexivity|]. split; [exact V1|]. split; [exact V2|]. destruct C40_ex as (R & _ & N & _). intros p.
  assert (G : Forall (good_rule registry_init false) ex38) by (repeat (constructor; [apply mk_good; vm_compute; reflexivity|]); constructor).
  destruct (C89_single 30 1 (fun l => l) (fun l => l) (fun _ => sret ex38) ex89_write ex89_single registry_init reg' run registry_init ex38 (fun _ => O) eq_refl eq_refl R G ex38_total N E p) as (c & H & _).
  exists c. exact H.
Qed.
Example C89_ex_extra : snd (compress_main 30 1 (fun l => l) (fun l => l) (fun _ => ruleset_from_fib fib_lines) ex89_write (mkCoptions "fib" false false false true false "text") registry_init) = Err TypeError.
Proof. vm_compute. reflexivity. Qed.

Print Assumptions C89_sizes.
Print Assumptions C89_keeps_dependencies.
Print Assumptions C89_keeps_direct_dependencies.
Print Assumptions C89_fib_extra.
Print Assumptions C89_fib.
Print Assumptions C89_saved.
Print Assumptions C89_single.
Print Assumptions C89_output_compressed_refuted.
