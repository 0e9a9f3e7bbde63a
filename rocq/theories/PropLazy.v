(** C26: the lazy treatment of set fields. *)
From Verif Require Import MatchProofs MatchWcProofs LazyProofs PropNormalise.
From Verif Require SpecEager SingleTableProofs InstProofs EagerSem.
From Coq Require Import Lia Permutation.
Local Open Scope string_scope.
Local Open Scope list_scope.
Local Open Scope Z_scope.
Local Opaque NB WC_FULLWC layout oxm_fields registry_init.

(** The order in which the ports are visited is any order of the same ports. *)
Definition visits_all (kord : list Z -> list Z) : Prop := forall ks k, In k (kord ks) <-> In k ks.
(** What a rule executes: the applied actions and then the action set, as a list without MPLS
    pushes and PBB in which each port occurs once. *)
Definition executes (r : rule) (xs : list action) : Prop :=
  SpecEager.built r /\ SpecEager.runs_actions r xs /\ Forall wf_act xs /\ NoDup (ports xs).
(** Both tables miss, or both hit rules that emit the same packets on the same ports, for every
    packet whose header is [p]. *)
Definition forwards_alike (A B : list rule) (p : packet) : Prop :=
  (first_match A p None /\ first_match B p None) \/
  (exists rA rB, first_match A p (Some rA) /\ first_match B p (Some rB) /\
     forall pick xs ys q, carries p q -> executes rA xs -> executes rB ys -> same_outs (run_out pick xs q) (run_out pick ys q)).

(** ** C26 *)
(** Full claim: for every pair of canonical forms the check returns a Boolean, and True only if
    both sides emit the same packets on the same ports. The second half, for rules without
    repeated ports, MPLS pushes and PBB (see C26_repeated_port_refuted). *)
Theorem C26_true_is_sound_partial : forall SHIFT reg r kord A B acts a1 ba a2 bb more, 0 < SHIFT -> SHIFT mod 2 = 0 -> visits_all kord ->
  rules_ok reg A -> rules_ok reg B -> reg_ok r -> NoDup acts -> NoDup (a2 ++ more) -> Z.of_nat (List.length (a2 ++ more)) < 2 ^ 26 ->
  normalise_naive SHIFT None acts A = Ok (a1, ba) -> normalise_naive SHIFT None a1 B = Ok (a2, bb) ->
  check_equal_lazy kord r (a2 ++ more) ba bb = Ok true -> forall p, forwards_alike A B p.
Proof.
  intros SHIFT reg r kord A B acts a1 ba a2 bb more Hs He Ko HA HB Hr N N2 L EA EB E.
  destruct (naive_denotes SHIFT reg A acts a1 ba Hs He HA N EA) as (_ & N1 & DA).
  destruct (naive_denotes SHIFT reg B a1 a2 bb Hs He HB N1 EB) as ([ext ->] & _ & DB).
  apply (lazy_sound kord r A B ((a1 ++ ext) ++ more) ba bb); auto; [intros ks k; apply Ko| |].
  - rewrite <- app_assoc. now apply denotes_ext.
  - now apply denotes_ext.
Qed.
(** The same with the default (divide and conquer) normaliser. *)
Theorem C26_true_is_sound_dc_partial : forall SHIFT reg r kord A B acts a1 ba a2 bb more, 0 < SHIFT -> SHIFT mod 2 = 0 -> visits_all kord ->
  rules_ok reg A -> rules_ok reg B -> reg_ok r -> NoDup acts -> NoDup (a2 ++ more) -> Z.of_nat (List.length (a2 ++ more)) < 2 ^ 26 ->
  normalise_dc SHIFT None acts A = Ok (a1, ba) -> normalise_dc SHIFT None a1 B = Ok (a2, bb) ->
  check_equal_lazy kord r (a2 ++ more) ba bb = Ok true -> forall p, forwards_alike A B p.
Proof.
  intros SHIFT reg r kord A B acts a1 ba a2 bb more Hs He Ko HA HB Hr N N2 L EA EB.
  assert (NA : A <> []) by (intros ->; discriminate EA). assert (NB' : B <> []) by (intros ->; discriminate EB).
  rewrite (C21_divide_and_conquer_agrees SHIFT None reg A acts Hs He HA NA N) in EA.
  destruct (naive_denotes SHIFT reg A acts a1 ba Hs He HA N EA) as (_ & N1 & _).
  rewrite (C21_divide_and_conquer_agrees SHIFT None reg B a1 Hs He HB NB' N1) in EB.
  now apply (C26_true_is_sound_partial SHIFT reg r kord A B acts a1 ba a2 bb more).
Qed.
Lemma full_actions_ok i la : SingleTableProofs.inst_wf i -> full_actions i = Ok la -> exists ys, al_ok la ys.
Proof. intros [Wa Ww] E. destruct (InstProofs.al_add_ok _ _ _ _ _ Wa (proj1 Ww) E) as [A _]. eauto. Qed.
(** The first half, for tables in which every packet hits a rule, rules only set fields and
    output, and no rule matches on an inner tag. *)
Definition sets_and_outputs (r : rule) : Prop := SpecEager.built r /\
  forall xs a, SpecEager.runs_actions r xs -> In a xs -> (exists k, a = OUTPUT k) \/ (exists f v, In f (map fst field_deps) /\ a = SETF f v).
Theorem C26_returns_a_boolean_partial : forall SHIFT reg r kord A B acts a1 ba a2 bb more, 0 < SHIFT -> SHIFT mod 2 = 0 -> visits_all kord ->
  rules_ok reg A -> rules_ok reg B -> reg_ok r -> NoDup acts -> NoDup (a2 ++ more) -> Z.of_nat (List.length (a2 ++ more)) < 2 ^ 26 ->
  normalise_naive SHIFT None acts A = Ok (a1, ba) -> normalise_naive SHIFT None a1 B = Ok (a2, bb) ->
  (forall x, In x A \/ In x B -> sets_and_outputs x /\ forall it, In it (items_view (m_items (rmatch (rcore x)))) -> In (fst it) (map fst field_deps)) ->
  (forall p, ~ first_match A p None) -> (forall p, ~ first_match B p None) ->
  exists v, check_equal_lazy kord r (a2 ++ more) ba bb = Ok v.
Proof.
  intros SHIFT reg r kord A B acts a1 ba a2 bb more Hs He Ko HA HB Hr N N2 L EA EB HX TA TB.
  destruct (naive_denotes SHIFT reg A acts a1 ba Hs He HA N EA) as (_ & N1 & DA).
  destruct (naive_denotes SHIFT reg B a1 a2 bb Hs He HB N1 EB) as ([ext ->] & _ & DB).
  apply (lazy_total kord r A B ((a1 ++ ext) ++ more) ba bb); auto.
  - intros ks k. apply Ko.
  - rewrite <- app_assoc. now apply denotes_ext.
  - now apply denotes_ext.
  - intros x it Hx. apply HX. now left.
  - intros x it Hx. apply HX. now right.
  - intros x d Hx E. destruct (HX x Hx) as [[(xs0 & ws0 & B1 & B2) F] _]. unfold rule_actions in E. apply rbind_ok in E as (la & El & E).
    assert (W := SingleTableProofs.inst_wf_of _ _ _ B1 B2). destruct (EagerSem.runs_exists x W) as (xs & R). assert (T := EagerSem.runs_teq x xs la W R El).
    destruct (full_actions_ok _ _ W El) as (ys & Oy).
    eapply per_output_simple_dict; [exact Oy| |exact E]. apply Forall_forall. intros a Ha.
    assert (Ha' : In a xs) by (eapply Permutation_in; [|exact Ha]; eapply Permutation_trans; [apply al_ok_perm, Oy|apply Permutation_sym, (ateq_perm _ _ T)]).
    destruct (F xs a R Ha') as [(k & ->)|(f & v & Hf & ->)].
    + right. now exists k.
    + left. now exists f, v.
Qed.

(** *** Examples: literal diagrams of tables *)
Fixpoint fold_acts (rules : list rule) (acts : list tkey) : list tkey :=
  match rules with
  | [] => acts
  | r :: t => fold_acts t (match rule_actions r with Ok d => fst (action_id tkey_eq_dec acts (FAct d)) | Err _ => acts end)
  end.
Lemma naive_acts rules : rules_ok registry_init rules -> forall st acts' b, rfold (naive_rule 30 None) rules st = Ok (acts', b) -> acts' = fold_acts rules (fst st).
Proof.
  induction rules as [|r rules IH]; intros H [acts b0] acts' b E; cbn [rfold fold_acts fst] in *; [now injection E as <- _|].
  apply rbind_ok in E as (st1 & E1 & E). apply (IH ltac:(intros x Hx; apply H; now right)) in E. rewrite E. f_equal. clear E IH.
  destruct (rule_wc_ok registry_init r) as (w & Ew & Ww & _); [apply H; now left|].
  unfold naive_rule, rule_entries in E1. destruct (rule_actions r) as [d|]; [|discriminate E1]. cbn [rbind] in E1. rewrite Ew in E1. cbn [rbind] in E1.
  injection E1 as <-. cbn [fold_left add_entry fst snd]. unfold wc_BDD.
  destruct (Z.eqb_spec w 0) as [->|_]; [destruct Ww as [_ Z0]; destruct (Z0 0) as [X|X]; [rewrite NB_val; lia|discriminate X|discriminate X]|].
  destruct (action_id tkey_eq_dec acts (FAct d)). reflexivity.
Qed.
Lemma naive_is rules acts acts' t : rules_ok registry_init rules -> (forall r, In r rules -> is_ok (rule_actions r) = true) -> one_table rules = true -> NoDup acts ->
  fold_acts rules acts = acts' -> add_wf 0 t -> (forall p o, prescribes rules p o -> term_to_action acts' (adenote t p) = Ok (option_map FAct o)) ->
  normalise_naive 30 None acts rules = Ok (acts', t) /\ NoDup acts'.
Proof.
  intros H A T N Ea W D. destruct (naive_first_match 30 ltac:(lia) eq_refl registry_init rules acts H A T N) as (a & b & f & E & _ & N' & S & P).
  assert (X : a = acts').
  { rewrite <- Ea. unfold normalise_naive in E. rewrite T in E. now apply (naive_acts rules H) in E. }
  subst a. rewrite E. split; [|auto]. do 2 f_equal. apply (NormaliseProofs.sem_unique acts' b t f); auto. split; [auto|]. intros p. now apply D.
Qed.
Ltac ok_rules := let r := fresh in let H := fresh in intros r H; repeat (destruct H as [<-|H]; [apply mk_match_ok; reflexivity|]); destruct H.
Ltac ok_acts := let r := fresh in let H := fresh in intros r H; repeat (destruct H as [<-|H]; [vm_compute; reflexivity|]); destruct H.
Lemma def_match rules r p o : m_items (rmatch (rcore r)) = [] -> first_match (r :: rules) p o -> o = Some r.
Proof. intros E H. inversion H as [|r0 rs p0 A|r0 rs p0 o0 A B]; subst; [reflexivity|]. elim A. now apply def_accepts. Qed.
Lemma set_out prio tbl items xs : is_ok (al_of xs) = true ->
  (forall a, In a xs -> (exists k, a = OUTPUT k) \/ (exists f v, In f (map fst field_deps) /\ a = SETF f v)) -> sets_and_outputs (mk_rule prio tbl items xs).
Proof. intros H F. split; [now apply mk_built|]. intros ys a R. apply mk_runs in R as ->; auto. Qed.
Definition m_bos : list (string * (Z * option Z)) := [("MPLS_BOS", (1, None))].
Lemma nodup_init : NoDup acts_init. Proof. repeat constructor; intros []. Qed.
Definition id_ord (l : list Z) := l.
Lemma id_visits : visits_all id_ord. Proof. intros ks k. reflexivity. Qed.

(** The example of the docstring. *)
Definition always : list rule := [mk_rule 0 0 [] [SETF "MPLS_BOS" 1; OUTPUT 1]].
Definition where_needed : list rule := [mk_rule 20 0 m_bos [OUTPUT 1]; mk_rule 0 0 [] [SETF "MPLS_BOS" 1; OUTPUT 1]].
Definition never : list rule := [mk_rule 0 0 [] [OUTPUT 1]].
Definition acts3 : list tkey := [DIFFERENT; FAct [(1, [SETF "MPLS_BOS" 1; OUTPUT 1])]; FAct [(1, [OUTPUT 1])]].
Lemma one_rule acts acts' i prio items xs d : items = [] -> rule_actions (mk_rule prio 0 items xs) = Ok d -> NoDup acts ->
  fst (action_id tkey_eq_dec acts (FAct d)) = acts' -> term_to_action acts' i = Ok (Some (FAct d)) ->
  normalise_naive 30 None acts [mk_rule prio 0 items xs] = Ok (acts', AConst i) /\ NoDup acts'.
Proof.
  intros -> E N Ea Ei. apply naive_is; auto.
  - ok_rules.
  - intros r [<-|[]]. now rewrite E.
  - cbn [fold_acts]. now rewrite E.
  - exact Logic.I.
  - intros p o [[F ->]|(r & d' & F & E' & ->)]; apply def_match in F; try reflexivity; [discriminate F|]. injection F as ->. rewrite E in E'. injection E' as <-. exact Ei.
Qed.
Lemma always_add : normalise_naive 30 None acts_init always = Ok (firstn 2 acts3, AConst 2) /\ NoDup (firstn 2 acts3).
Proof. apply one_rule with (d := [(1, [SETF "MPLS_BOS" 1; OUTPUT 1])]); try apply nodup_init; vm_compute; reflexivity. Qed.
Lemma never_add : normalise_naive 30 None (firstn 2 acts3) never = Ok (acts3, AConst 3) /\ NoDup acts3.
Proof. apply one_rule with (d := [(1, [OUTPUT 1])]); try apply always_add; vm_compute; reflexivity. Qed.
Lemma bos_match acts0 rest p o : first_match (mk_rule 20 0 m_bos acts0 :: rest) p o ->
  (p 420 = true /\ o = Some (mk_rule 20 0 m_bos acts0)) \/ (p 420 = false /\ first_match rest p o).
Proof.
  intros F. inversion F as [|r0 rs p0 A|r0 rs p0 o0 A B]; subst.
  - left. split; [|reflexivity]. now apply (bos_accepts (mk_rule 20 0 m_bos acts0) p eq_refl).
  - right. split; [|auto]. destruct (p 420) eqn:E; [|reflexivity]. elim A. now apply (bos_accepts (mk_rule 20 0 m_bos acts0) p eq_refl).
Qed.
Lemma where_needed_add : normalise_naive 30 None (firstn 2 acts3) where_needed = Ok (acts3, ANode 1163 (AConst 3) (AConst 2)) /\ NoDup acts3.
Proof.
  apply naive_is; [ok_rules|ok_acts|reflexivity|apply always_add|vm_compute; reflexivity| |].
  - cbn [add_wf]. rewrite NB_val. repeat split; try lia. discriminate.
  - intros p o H. assert (Q : adenote (ANode 1163 (AConst 3) (AConst 2)) p = if p 420 then 3 else 2) by (cbn [adenote]; rewrite NB_val; reflexivity). rewrite Q.
    destruct H as [[F ->]|(r & d & F & E & ->)]; apply bos_match in F as [[P X]|[P X]]; try discriminate X; rewrite P;
      try (apply def_match in X; [|reflexivity]); try discriminate X; injection X as ->; vm_compute in E; injection E as <-; reflexivity.
Qed.
(** Setting the field always and setting it where needed are found equal, never setting it is not. *)
Example C26_ex : exists a1 ba a2 bb a3 bc,
  normalise_naive 30 None acts_init always = Ok (a1, ba) /\ normalise_naive 30 None a1 where_needed = Ok (a2, bb) /\
  normalise_naive 30 None a1 never = Ok (a3, bc) /\ ba <> bb /\
  check_equal_lazy id_ord registry_init a2 ba bb = Ok true /\ check_equal_lazy id_ord registry_init a3 ba bc = Ok false.
Proof.
  exists (firstn 2 acts3), (AConst 2), acts3, (ANode 1163 (AConst 3) (AConst 2)), acts3, (AConst 3).
  split; [apply always_add|]. split; [apply where_needed_add|]. split; [apply never_add|]. split; [discriminate|]. split; vm_compute; reflexivity.
Qed.
(** The hypotheses of the theorems hold there. *)
Definition ex_pkt : pkt := Pkt (Frame 1 2 34887 0 0 [Vlan 33024 4101 3] [Mpls 77 2 1 64]) [] (fun f => if String.eqb f "IN_PORT" then 7 else 0) 64 None.
Definition ex_header : packet := fun i => match find (fun s => (sl_off s <=? i) && (i <? sl_off s + sl_bits s)) layout with
  | Some s => match value_in ex_pkt (sl_name s) with Some v => Z.testbit v (i - sl_off s) | None => false end
  | None => false end.
Example C26_carries_ex : carries ex_header ex_pkt /\ ex_header 420 = true.
Proof.
  split; [|vm_compute; reflexivity].
  assert (V : forallb (fun s => match value_in ex_pkt (sl_name s) with Some v => (0 <=? v) && (v <? 2 ^ sl_bits s) | None => true end) layout = true) by (vm_compute; reflexivity).
  intros s v Hs E. rewrite forallb_forall in V. specialize (V s Hs). rewrite E in V. apply andb_true_iff in V as [V1 V2]. split; [lia|]. intros j Hj.
  unfold field_bit, ex_header. destruct (find _ layout) as [s'|] eqn:Ef.
  - apply find_some in Ef as [Hs' B]. apply andb_true_iff in B as [B1 B2]. destruct (slot_disjoint s s' Hs Hs') as [<-|D]; [|destruct (slot_range s' Hs') as (_ & X & _); lia].
    rewrite E. f_equal. lia.
  - exfalso. assert (X := find_none _ _ Ef s Hs). cbn beta in X. lia.
Qed.
Example C26_hyps_ex : rules_ok registry_init always /\ rules_ok registry_init where_needed /\ reg_ok registry_init /\
  (forall x, In x always \/ In x where_needed -> sets_and_outputs x /\ forall it, In it (items_view (m_items (rmatch (rcore x)))) -> In (fst it) (map fst field_deps)) /\
  (forall p, ~ first_match always p None) /\ (forall p, ~ first_match where_needed p None) /\
  executes (mk_rule 0 0 [] [SETF "MPLS_BOS" 1; OUTPUT 1]) [SETF "MPLS_BOS" 1; OUTPUT 1].
Proof.
  split; [ok_rules|]. split; [ok_rules|]. split; [apply reg_init_ok|]. split; [|split; [|split]].
  - assert (A : sets_and_outputs (mk_rule 0 0 [] [SETF "MPLS_BOS" 1; OUTPUT 1])).
    { apply set_out; [vm_compute; reflexivity|]. intros a [<-|[<-|[]]]; [right; exists "MPLS_BOS", 1; split; [vm_compute; tauto|reflexivity]|left; now exists 1]. }
    intros x [[<-|[]]|[<-|[<-|[]]]]; (split; [try exact A|]).
    + intros it [].
    + apply set_out; [vm_compute; reflexivity|]. intros a [<-|[]]. left. now exists 1.
    + intros it [<-|[]]. vm_compute. tauto.
    + intros it [].
  - intros p F. apply def_match in F; [discriminate F|reflexivity].
  - intros p F. apply bos_match in F as [[_ X]|[_ X]]; [discriminate X|]. apply def_match in X; [discriminate X|reflexivity].
  - split; [now apply mk_built|]. split; [now apply mk_runs|]. split; [|repeat constructor; intros []]. repeat constructor; discriminate.
Qed.

(** *** What is missing *)
(** Not a Boolean: where only one of the tables has a rule for a packet, dict(None) is a TypeError. *)
Definition drop_bos : list rule := [mk_rule 20 0 m_bos []].
Definition drop_all : list rule := [mk_rule 0 0 [] []].
Theorem C26_undefined_side_refuted : exists A B a1 ba a2 bb, rules_ok registry_init A /\ rules_ok registry_init B /\
  normalise_naive 30 None acts_init A = Ok (a1, ba) /\ normalise_naive 30 None a1 B = Ok (a2, bb) /\
  check_equal_lazy id_ord registry_init a2 ba bb = Err TypeError.
Proof.
  set (acts := [DIFFERENT; FAct []]).
  assert (E1 : normalise_naive 30 None acts_init drop_all = Ok (acts, AConst 2) /\ NoDup acts)
    by (apply one_rule with (d := []); try apply nodup_init; vm_compute; reflexivity).
  assert (E2 : normalise_naive 30 None acts drop_bos = Ok (acts, ANode 1163 (AConst 2) BK) /\ NoDup acts).
  { apply naive_is; [ok_rules|ok_acts|reflexivity|apply E1|vm_compute; reflexivity| |].
    - cbn [add_wf]. rewrite NB_val. repeat split; try lia. discriminate.
    - intros p o H. assert (Q : adenote (ANode 1163 (AConst 2) BK) p = if p 420 then 2 else 0) by (cbn [adenote]; rewrite NB_val; reflexivity). rewrite Q.
      destruct H as [[F ->]|(r & d & F & E & ->)]; apply bos_match in F as [[P X]|[P X]]; try discriminate X; rewrite P.
      + reflexivity.
      + injection X as ->. vm_compute in E. injection E as <-. reflexivity.
      + inversion X. }
  exists drop_all, drop_bos, acts, (AConst 2), acts, (ANode 1163 (AConst 2) BK).
  split; [ok_rules|]. split; [ok_rules|]. split; [apply E1|]. split; [apply E2|]. vm_compute. reflexivity.
Qed.
(** Not a Boolean: where the tables differ under an exact match on an inner tag (which only the
    condensation of several tables produces), the field has no entry in the dependency table. *)
Definition m_bos1 : list (string * (Z * option Z)) := [("MPLS_BOS1", (1, None))].
Definition set_bos1 : list rule := [mk_rule 20 0 m_bos1 [SETF "MPLS_BOS" 1; OUTPUT 1]; mk_rule 0 0 [] [OUTPUT 1]].
Lemma bos1_accepts xs p : rule_accepts (mk_rule 20 0 m_bos1 xs) p <-> p 244 = true.
Proof.
  assert (L : In (Slot "MPLS_BOS1" 244 1) layout) by (vm_compute; tauto). split.
  - intros H. specialize (H ("MPLS_BOS1", (1, None)) (or_introl eq_refl) (Slot "MPLS_BOS1" 244 1)). apply (H L eq_refl 0); [cbn; lia|reflexivity].
  - intros Hp it [<-|[]] s Hs En j Hj _. cbn [fst snd] in *.
    assert (s = Slot "MPLS_BOS1" 244 1) as -> by (apply slot_name_inj; [auto|exact L|exact En]).
    cbn [sl_bits] in Hj. assert (j = 0) as -> by lia. exact Hp.
Qed.
Theorem C26_inner_field_refuted : exists A B a1 ba a2 bb, rules_ok registry_init A /\ rules_ok registry_init B /\
  (forall x, In x A \/ In x B -> sets_and_outputs x) /\ (forall p, ~ first_match A p None) /\ (forall p, ~ first_match B p None) /\
  normalise_naive 30 None acts_init A = Ok (a1, ba) /\ normalise_naive 30 None a1 B = Ok (a2, bb) /\
  check_equal_lazy id_ord registry_init a2 ba bb = Err KeyError.
Proof.
  set (acts := [DIFFERENT; FAct [(1, [OUTPUT 1])]]). set (acts' := acts ++ [FAct [(1, [SETF "MPLS_BOS" 1; OUTPUT 1])]]).
  assert (E1 : normalise_naive 30 None acts_init never = Ok (acts, AConst 2) /\ NoDup acts)
    by (apply one_rule with (d := [(1, [OUTPUT 1])]); try apply nodup_init; vm_compute; reflexivity).
  assert (M : forall p o, first_match set_bos1 p o ->
    (p 244 = true /\ o = Some (mk_rule 20 0 m_bos1 [SETF "MPLS_BOS" 1; OUTPUT 1])) \/ (p 244 = false /\ o = Some (mk_rule 0 0 [] [OUTPUT 1]))).
  { intros p o F. inversion F as [|r0 rs p0 A|r0 rs p0 o0 A B]; subst.
    - left. split; [|reflexivity]. now apply bos1_accepts in A.
    - right. apply def_match in B; [|reflexivity]. split; [|auto]. destruct (p 244) eqn:E; [|reflexivity]. elim A. now apply bos1_accepts. }
  assert (E2 : normalise_naive 30 None acts set_bos1 = Ok (acts', ANode 1339 (AConst 3) (AConst 2)) /\ NoDup acts').
  { apply naive_is; [ok_rules|ok_acts|reflexivity|apply E1|vm_compute; reflexivity| |].
    - cbn [add_wf]. rewrite NB_val. repeat split; try lia. discriminate.
    - intros p o H. assert (Q : adenote (ANode 1339 (AConst 3) (AConst 2)) p = if p 244 then 3 else 2) by (cbn [adenote]; rewrite NB_val; reflexivity). rewrite Q.
      destruct H as [[F ->]|(r & d & F & E & ->)]; apply M in F as [[P X]|[P X]]; try discriminate X; rewrite P; injection X as ->; vm_compute in E; injection E as <-; reflexivity. }
  exists never, set_bos1, acts, (AConst 2), acts', (ANode 1339 (AConst 3) (AConst 2)).
  split; [ok_rules|]. split; [ok_rules|]. split; [|split; [|split; [|split; [apply E1|split; [apply E2|vm_compute; reflexivity]]]]].
  - assert (A : sets_and_outputs (mk_rule 0 0 [] [OUTPUT 1])).
    { apply set_out; [vm_compute; reflexivity|]. intros a [<-|[]]. left. now exists 1. }
    intros x [[<-|[]]|[<-|[<-|[]]]]; try exact A. apply set_out; [vm_compute; reflexivity|].
    intros a [<-|[<-|[]]]; [right; exists "MPLS_BOS", 1; split; [vm_compute; tauto|reflexivity]|left; now exists 1].
  - intros p F. apply def_match in F; [discriminate F|reflexivity].
  - intros p F. apply M in F as [[_ X]|[_ X]]; discriminate X.
Qed.
(** True, although one table sends a second, unmodified copy to the same port: a port is in the
    canonical form once. *)
Theorem C26_repeated_port_refuted : exists A B a1 ba a2 bb p rA rB xs ys q, rules_ok registry_init A /\ rules_ok registry_init B /\
  normalise_naive 30 None acts_init A = Ok (a1, ba) /\ normalise_naive 30 None a1 B = Ok (a2, bb) /\
  check_equal_lazy id_ord registry_init a2 ba bb = Ok true /\
  first_match A p (Some rA) /\ first_match B p (Some rB) /\ carries p q /\
  SpecEager.runs_actions rA xs /\ SpecEager.runs_actions rB ys /\ Forall wf_act xs /\ Forall wf_act ys /\
  forall pick, List.length (run_out pick xs q) <> List.length (run_out pick ys q).
Proof.
  set (xs := [OUTPUT 1; SETF "MPLS_BOS" 1; OUTPUT 1]). set (ys := [SETF "MPLS_BOS" 1; OUTPUT 1]). set (acts := [DIFFERENT; FAct [(1, ys)]]).
  assert (E1 : normalise_naive 30 None acts_init [mk_rule 0 0 [] xs] = Ok (acts, AConst 2) /\ NoDup acts)
    by (apply one_rule with (d := [(1, ys)]); try apply nodup_init; vm_compute; reflexivity).
  assert (E2 : normalise_naive 30 None acts [mk_rule 0 0 [] ys] = Ok (acts, AConst 2) /\ NoDup acts)
    by (apply one_rule with (d := [(1, ys)]); try apply E1; vm_compute; reflexivity).
  exists [mk_rule 0 0 [] xs], [mk_rule 0 0 [] ys], acts, (AConst 2), acts, (AConst 2), ex_header, (mk_rule 0 0 [] xs), (mk_rule 0 0 [] ys), xs, ys, ex_pkt.
  split; [ok_rules|]. split; [ok_rules|]. split; [apply E1|]. split; [apply E2|]. split; [vm_compute; reflexivity|].
  split; [constructor; now apply def_accepts|]. split; [constructor; now apply def_accepts|]. split; [apply C26_carries_ex|].
  split; [apply mk_runs; reflexivity|]. split; [apply mk_runs; reflexivity|].
  split; [repeat constructor; discriminate|]. split; [repeat constructor; discriminate|]. intros pick. cbn. lia.
Qed.
Print Assumptions C26_true_is_sound_partial.
Print Assumptions C26_true_is_sound_dc_partial.
Print Assumptions C26_returns_a_boolean_partial.
Print Assumptions C26_undefined_side_refuted.
Print Assumptions C26_inner_field_refuted.
Print Assumptions C26_repeated_port_refuted.
