(** Theorems for C83: the single table of rules that push and pop tags. *)
From Coq Require Import Lia ZifyBool ZifyNat ZifyN Permutation.
From Verif Require Import ActionProofs ExecProofs ActionSetProofs InstProofs MatchWcProofs Match Merge SingleTable SpecTallTable MatchProofs MergeProofs SingleTableProofs TagProofs TallProofs NormaliseProofs PropNormalise PropMerge PropSingle PropTags PropTall TallTable.
Local Open Scope string_scope.
Local Open Scope list_scope.
Local Open Scope Z_scope.
Local Opaque NB WC_FULLWC layout oxm_fields registry_init.

(** ** C83 *)
(** Rules without a goto may push and pop tags as they like. A rule with one neither pushes nor pops,
    or (then not for OpenFlow, as the result may have to match on inner tags) it is in
    table 0, its tag operations can be followed (C79) and it goes to a table whose rules have no goto and
    match on outermost tags. As in C38 a table that has rules of priority 0 matches every packet. Then the first
    rule of the result that matches a packet has the effect of the pipeline. *)
Theorem C83_tag_pipeline_partial : forall pick rs o reg r' single, reg_ok reg -> Forall (tag_rule rs reg o) rs -> total_tables rs ->
  to_single_table rs o reg = (r', Ok single) -> forall T, exists c, first_match single (tview T) (Some c) /\
  (exists out, texecutes false rs T out) /\
  (forall l out, full_actions (inst (rcore c)) = Ok l -> texecutes false rs T out -> no_pbb_pair out -> same_effect pick out (al_iter l)).
Proof.
  intros pick rs o reg r' single Hr Hg Ht H T. destruct (tsingle_table_ok rs o reg r' single Hr Hg Ht H T) as (c & Fc & Hex & Hout).
  exists c. split; [auto|]. split; [auto|]. intros l out Hl He Hn. apply teq_effect; [now apply Hout|auto].
Qed.
(** The rules of C38 are among these. *)
Theorem C83_covers_C38 : forall rs reg o, Forall (good_rule reg o) rs -> Forall (tag_rule rs reg o) rs.
Proof.
  intros rs reg o H. eapply Forall_impl; [|exact H]. intros r ((M & W & P & D) & Hp & Ht & Hg). split; [split; auto|]. split; [auto|]. split; [auto|]. split; [auto|].
  intros t E. split; [auto|]. now left.
Qed.

(** Table 0 pops a tag, table 1 forwards by the id of the tag below. *)
Definition POPV : action := ("POP_VLAN", VNone).
Definition ex83 (x : Z) : list rule :=
  [mk_r 10 0 [("VLAN_VID", (4097, None))] (mk_full [POPV] [] (Some 1) false None);
   mk_r 0 0 [] (mk_full [] [] None false None);
   mk_r 10 1 [("VLAN_VID", (4098, None))] (mk_full [OUTPUT x] [] None false None);
   mk_r 0 1 [] (mk_full [OUTPUT 9] [] None false None)].
(** a packet with the tags 1 and, below, 2 *)
Definition T83 : tall := Tall (fun _ => false) (fun f k j => String.eqb f "VLAN_VID" && match k with 0%nat => Z.testbit 4097 j | 1%nat => Z.testbit 4098 j | _ => false end).
Lemma vid_hits r v T : items_view (m_items (rmatch (rcore r))) = [("VLAN_VID", (v, None))] ->
  forallb (fun j => Bool.eqb (tview T (1331 + j)) (Z.testbit v j)) [0;1;2;3;4;5;6;7;8;9;10;11;12] = true -> rule_accepts r (tview T).
Proof.
  intros E H. unfold rule_accepts. rewrite E. intros it [<-|[]] s Hs En j Hj _; cbn [fst snd] in *.
  assert (s = Slot "VLAN_VID" 1331 13) as -> by (apply slot_name_inj; [auto|vm_compute; tauto|exact En]). cbn [sl_bits sl_off] in *.
  rewrite forallb_forall in H. apply Bool.eqb_prop. apply H. cbn [In]. lia.
Qed.
Lemma ex83_rules x : is_ok (al_of [OUTPUT x]) = true -> Forall (tag_rule (ex83 x) registry_init false) (ex83 x).
Proof.
  intros Hx. assert (O : Forall (fun r => outer_rule registry_init (rcore r)) (ex83 x)).
  { repeat (apply Forall_cons; [apply c79_outer; try (vm_compute; reflexivity); try exact Hx; intros k; vm_compute; intuition|]). apply Forall_nil. }
  assert (B : forall r, In r (ex83 x) -> base_ok registry_init (rcore r)).
  { intros r Hr. rewrite Forall_forall in O. destruct (O r Hr) as (M & W & _). split; auto. }
  apply Forall_forall. intros r Hr. split; [now apply B|]. split; [discriminate|]. rewrite Forall_forall in O.
  assert (O1 := O r Hr). destruct Hr as [<-|[<-|[<-|[<-|[]]]]]; cbn; (split; [lia|]; split; [lia|]); try discriminate. intros t [= <-]. split; [lia|]. right.
  split; [reflexivity|]. split; [reflexivity|]. split.
  - split; [exact O1|]. split; [|intros v; vm_compute; intuition discriminate].
    match goal with |- tame _ _ (al_iter ?l) => assert (E : al_iter l = [POPV]) by (vm_compute; reflexivity) end. rewrite E. cbn. split; [lia|exact Logic.I].
  - intros y Hy. specialize (O y Hy). destruct Hy as [<-|[<-|[<-|[<-|[]]]]]; try discriminate; auto.
Qed.
Lemma ex83_total x : total_tables (ex83 x).
Proof.
  intros r Hr H p. destruct Hr as [<-|[<-|[<-|[<-|[]]]]]; try discriminate H; [exists (nth 1 (ex83 x) (r37 0 0))|exists (nth 3 (ex83 x) (r37 0 0))];
    (split; [cbn; tauto|]; split; [reflexivity|]; intros it []).
Qed.
Lemma ex83_pipeline x : orig_order (ok_list [OUTPUT x]) = [OUTPUT x] -> tpipeline (ex83 x) 0 T83 [] [] false [POPV; OUTPUT x] [].
Proof.
  intros E. eapply tp_goto with (r := nth 0 (ex83 x) (r37 0 0)) (t' := 1); [|reflexivity|].
  - exists [], (skipn 1 (ex83 x)). split; [reflexivity|]. split; [reflexivity|]. split; [apply vid_hits with (v := 4097); vm_compute; reflexivity|]. split; [intros y []|].
    intros y [<-|[<-|[<-|[]]]] Q _; try discriminate Q. cbn; lia.
  - assert (Ea : applied_after (inst (rcore (nth 2 (ex83 x) (r37 0 0)))) (applied_after (inst (rcore (nth 0 (ex83 x) (r37 0 0)))) []) = [POPV; OUTPUT x]).
    { change (applied_after (inst (rcore (nth 2 (ex83 x) (r37 0 0)))) (applied_after (inst (rcore (nth 0 (ex83 x) (r37 0 0)))) [])) with ([POPV] ++ orig_order (ok_list [OUTPUT x])). now rewrite E. }
    assert (Ew : writes_after (inst (rcore (nth 2 (ex83 x) (r37 0 0)))) (writes_after (inst (rcore (nth 0 (ex83 x) (r37 0 0)))) []) = []) by reflexivity.
    rewrite <- Ea, <- Ew. apply tp_stop; [|reflexivity].
    exists (firstn 2 (ex83 x)), (skipn 3 (ex83 x)). split; [reflexivity|]. split; [reflexivity|]. split; [apply vid_hits with (v := 4098); vm_compute; reflexivity|].
    split; [intros y [<-|[<-|[]]] Q; discriminate Q|]. intros y [<-|[]] _ _. cbn; lia.
Qed.
Lemma set_nil o : set_list [] o -> o = [].
Proof.
  intros H. apply Permutation_nil. apply ateq_perm. refine (set_list_teq [] _ _ (Forall_nil _) _ H). exact (set_inv_list _ _ (as_of_inv [] _ eq_refl)).
Qed.
Lemma ex83_executes d x : orig_order (ok_list [OUTPUT x]) = [OUTPUT x] -> forall out, texecutes d (ex83 x) T83 out <-> out = [POPV; OUTPUT x].
Proof.
  intros E out. assert (P := ex83_pipeline x E). split.
  - intros (m & a & w & o & Hp & Hs & ->). destruct (tpipeline_det _ _ _ _ _ _ _ _ _ _ _ Hp P) as (-> & -> & ->). now rewrite (set_nil o Hs).
  - intros ->. exists false, [POPV; OUTPUT x], [], []. split; [exact P|]. split; [exact (set_inv_list _ _ (as_of_inv [] _ eq_refl))|reflexivity].
Qed.
Definition tview_rule (c : rule) := (items_view (m_items (rmatch (rcore c))), rmap al_iter (full_actions (inst (rcore c)))).
Lemma single83 : ok_with (to_single_table (ex83 1) true registry_init) (fun single => map tview_rule single = [([("VLAN_VID", (4097, None))], Ok [POPV; OUTPUT 9]); ([], Ok [])]).
Proof. vm_compute. reflexivity. Qed.
Lemma inner83 : ok_with (to_single_table (ex83 1) false registry_init) (fun single => map tview_rule single =
  [([("VLAN_VID1", (4098, None)); ("VLAN_VID", (4097, None))], Ok [POPV; OUTPUT 1]); ([("VLAN_VID", (4097, None))], Ok [POPV; OUTPUT 9]); ([], Ok [])]).
Proof. vm_compute. reflexivity. Qed.
Definition any_pkt : pkt := Pkt (Frame 0 0 0 0 0 [] []) [] (fun _ => 0) 0 None.
Lemma outputs_differ pick x y : x <> y -> 0 <= x -> 0 <= y -> run_out pick [POPV; OUTPUT x] any_pkt = [(x, run_pkt [POPV] any_pkt)] -> run_out pick [POPV; OUTPUT y] any_pkt = [(y, run_pkt [POPV] any_pkt)] ->
  ~ same_effect pick [POPV; OUTPUT x] [POPV; OUTPUT y].
Proof.
  intros N _ _ Ex Ey Q. destruct (Q any_pkt) as [_ (z & Pz & Fz)]. rewrite Ex in Pz. rewrite Ey in Fz. apply Permutation_length_1_inv in Pz. subst z.
  inversion Fz as [|? ? ? ? [S _]]; subst. now cbn in S.
Qed.
(** With the default, [openflow=True], the conversion promises a MergeException if the result cannot be
    expressed, but drops the rule: it returns a table that handles the packet differently. *)
Theorem C83_lost_rule_refuted : exists rs T r' single c l, Forall (tag_rule rs registry_init false) rs /\ total_tables rs /\
  to_single_table rs true registry_init = (r', Ok single) /\ first_match single (tview T) (Some c) /\ full_actions (inst (rcore c)) = Ok l /\
  (exists out, texecutes true rs T out) /\ forall pick d out, texecutes d rs T out -> ~ same_effect pick out (al_iter l).
Proof.
  destruct (ok_with_ex _ _ single83) as (r' & s & E & V). destruct s as [|c0 [|c1 [|c2 s]]]; try discriminate V.
  cbn [map] in V. unfold tview_rule in V. injection V as M0 A0 M1 A1. destruct (full_actions (inst (rcore c0))) as [l|] eqn:El; [|discriminate A0].
  cbn [rmap] in A0. assert (El' : al_iter l = [POPV; OUTPUT 9]) by congruence.
  exists (ex83 1), T83, r', [c0; c1], c0, l. split; [apply ex83_rules; vm_compute; reflexivity|]. split; [apply ex83_total|]. split; [exact E|].
  split; [apply fm_hit; apply vid_hits with (v := 4097); [exact M0|vm_compute; reflexivity]|]. split; [exact El|].
  split; [exists [POPV; OUTPUT 1]; apply ex83_executes; reflexivity|]. intros pick d out Ho. apply ex83_executes in Ho; [|reflexivity]. subst out. rewrite El'.
  apply outputs_differ; try lia; reflexivity.
Qed.
(** So two rule sets that send a packet to different ports get the same single table, and compare as
    equivalent (check_equivalence.py converts with the default). *)
Theorem C83_equal_tables_refuted : exists rs1 rs2 T r' single, Forall (tag_rule rs1 registry_init false) rs1 /\ Forall (tag_rule rs2 registry_init false) rs2 /\
  total_tables rs1 /\ total_tables rs2 /\
  to_single_table rs1 true registry_init = (r', Ok single) /\ to_single_table rs2 true registry_init = (r', Ok single) /\
  (exists out1 out2, texecutes true rs1 T out1 /\ texecutes true rs2 T out2) /\
  forall pick d out1 out2, texecutes d rs1 T out1 -> texecutes d rs2 T out2 -> ~ same_effect pick out1 out2.
Proof.
  destruct (ok_with_ex _ _ single83) as (r' & s & E & _). exists (ex83 1), (ex83 2), T83, r', s.
  assert (E2 : to_single_table (ex83 2) true registry_init = to_single_table (ex83 1) true registry_init) by (vm_compute; reflexivity).
  split; [apply ex83_rules; vm_compute; reflexivity|]. split; [apply ex83_rules; vm_compute; reflexivity|]. split; [apply ex83_total|]. split; [apply ex83_total|]. split; [exact E|]. split; [now rewrite E2|].
  split; [exists [POPV; OUTPUT 1], [POPV; OUTPUT 2]; split; (apply ex83_executes; reflexivity)|].
  intros pick d o1 o2 H1 H2. apply ex83_executes in H1; [|reflexivity]. apply ex83_executes in H2; [|reflexivity]. subst o1 o2. apply outputs_differ; try lia; reflexivity.
Qed.
(** Without [openflow] the merged rule matches on the inner tag; and, for OpenFlow, a table that
    pushes a tag after one that sets a field. *)
Definition ex83p : list rule :=
  [mk_r 10 0 [("VLAN_VID", (4097, None))] (mk_full [SETF "VLAN_VID" 7] [] (Some 1) false None);
   mk_r 5 1 [("VLAN_VID", (4103, None))] (mk_full [PUSH_VLAN; OUTPUT 1] [] None false None)].
Example C83_ex : reg_ok registry_init /\ Forall (tag_rule (ex83 1) registry_init false) (ex83 1) /\ total_tables (ex83 1) /\
  ok_with (to_single_table (ex83 1) false registry_init) (fun single => map tview_rule single =
    [([("VLAN_VID1", (4098, None)); ("VLAN_VID", (4097, None))], Ok [POPV; OUTPUT 1]); ([("VLAN_VID", (4097, None))], Ok [POPV; OUTPUT 9]); ([], Ok [])]) /\
  texecutes false (ex83 1) T83 [POPV; OUTPUT 1] /\ no_pbb_pair [POPV; OUTPUT 1] /\
  Forall (tag_rule ex83p registry_init true) ex83p /\ total_tables ex83p /\
  ok_with (to_single_table ex83p true registry_init) (fun single => map tview_rule single =
    [([("VLAN_VID", (4097, None))], Ok [SETF "VLAN_VID" 7; PUSH_VLAN; OUTPUT 1]); ([("VLAN_VID", (4097, None))], Ok [SETF "VLAN_VID" 7]); ([], Ok [])]).
Proof.
  split; [exact reg_init_ok|]. split; [apply ex83_rules; vm_compute; reflexivity|]. split; [apply ex83_total|]. split; [exact inner83|]. split; [apply ex83_executes; reflexivity|].
  split; [intros a b [<-|[<-|[]]] [<-|[<-|[]]]; reflexivity|]. split; [|split; [intros r [<-|[<-|[]]] H; discriminate H|vm_compute; reflexivity]].
  assert (G : good_rule registry_init true (hd (r37 0 0) ex83p)) by (apply mk_good; vm_compute; reflexivity).
  apply Forall_cons; [|apply Forall_cons; [|apply Forall_nil]].
  - destruct G as ((M & W & P & D) & Hp & Ht & Hg). split; [split; auto|]. split; [auto|]. split; [auto|]. split; [auto|]. intros t E. split; [auto|]. now left.
  - split; [split; [now apply mk_match_ok|]|].
    + eapply inst_wf_of with (xs := [PUSH_VLAN; OUTPUT 1]) (ws := []); vm_compute; reflexivity.
    + split; [reflexivity|]. cbn. split; [lia|]. split; [lia|]. discriminate.
Qed.
Print Assumptions C83_tag_pipeline_partial.
Print Assumptions C83_covers_C38.
Print Assumptions C83_lost_rule_refuted.
Print Assumptions C83_equal_tables_refuted.
