(** Theorems for C38-C40, C62, C63 and the rest of C24: the conversion to a single table. *)
From Coq Require Import Permutation Sorted Lia.
From Verif Require Import ActionSetProofs ActionProofs InstProofs Merge SingleTable MergeProofs SingleTableProofs PriorityProofs PathProofs ExecProofs PerOutputProofs EagerProofs SpecPipeline NormaliseProofs MatchProofs PropNormalise PropMerge.
Local Open Scope string_scope.
Local Open Scope list_scope.
Local Open Scope Z_scope.

(** ** Example material *)
Definition mk_r (prio tbl : Z) (items : list (string * (Z * option Z))) (i : instructions) : rule := mkRule (mk_core2 prio tbl items i) [].
Definition pool : list action := [OUTPUT 1; OUTPUT 2; OUTPUT 4; OUTPUT 5; OUTPUT 9; SETF "VLAN_VID" 7; SETF "MPLS_BOS" 1].
Lemma pool_compat x y : In x pool -> In y pool -> compat x y.
Proof.
  assert (H : forallb (fun x => forallb (fun y => known x && known y && match act_cmp x y with Some _ => true | None => false end) pool) pool = true) by (vm_compute; reflexivity).
  intros Hx Hy. rewrite forallb_forall in H. specialize (H x Hx). rewrite forallb_forall in H. specialize (H y Hy). rewrite !andb_true_iff in H. destruct H as [[H1 H2] H3].
  split; [auto|]. split; [auto|]. unfold comparable. destruct (act_cmp x y); discriminate.
Qed.
Lemma all_match c p : rmatch c = match_new -> core_accepts c p.
Proof. intros H. unfold core_accepts. rewrite H. intros it []. Qed.
Lemma mk_good o prio tbl items xs ws g c md :
  forallb (fun it => match dict_get registry_init (fst it) with Some _ => true | None => false end) items = true ->
  is_ok (al_of xs) = true -> is_ok (as_of ws) = true ->
  forallb (fun a => negb (existsb (String.eqb (fst a)) tag_names) && (negb (String.eqb (fst a) "SET_FIELD") || match snd a with VSet f _ => negb (String.eqb f "METADATA") | _ => false end)) (orig_order (ok_list xs)) = true ->
  existsb ends_in_digit (mkeys (mk_match items)) = false ->
  (0 <=? prio) && (0 <=? tbl) && match g with Some t => tbl <? t | None => true end = true ->
  good_rule registry_init o (mk_r prio tbl items (mk_full xs ws g c md)).
Proof.
  intros H1 H2 H3 H4 H5 H6. rewrite !andb_true_iff in H6. destruct H6 as [[H6 H7] H8]. split; [now apply mk_proper|]. cbn. split; [lia|]. split; [lia|].
  intros t ->. lia.
Qed.
(** two tables; table 1 has no default *)
Definition ex38 : list rule :=
  [mk_r 10 0 [("MPLS_BOS", (1, None))] (mk_full [SETF "VLAN_VID" 7] [OUTPUT 4] (Some 1) false None);
   mk_r 0 0 [] (mk_full [OUTPUT 9] [] None false None);
   mk_r 5 1 [("VLAN_VID", (4103, None))] (mk_full [OUTPUT 1] [OUTPUT 5] None false None)].
Lemma ex38_good : Forall (good_rule registry_init true) ex38.
Proof. repeat (constructor; [apply mk_good; vm_compute; reflexivity|]). constructor. Qed.
Lemma ex38_total : total_tables ex38.
Proof.
  intros r [<-|[<-|[<-|[]]]] H p; try discriminate H. exists (mk_r 0 0 [] (mk_full [OUTPUT 9] [] None false None)).
  split; [right; now left|]. split; [reflexivity|]. now apply def_accepts.
Qed.
Lemma ex38_runs : exists r' single, to_single_table ex38 true registry_init = (r', Ok single).
Proof.
  destruct (single_total (fun a => In a pool) pool_compat ex38 true registry_init reg_init_ok ex38_good) as (r' & s & E & _); [| | |eauto].
  - repeat (constructor; [split; vm_compute; repeat (constructor; [tauto|]); constructor|]). constructor.
  - vm_compute. tauto.
  - intros r [<-|[<-|[<-|[]]]]; reflexivity.
Qed.

(** ** C38 *)
(** Rules as the readers produce them, priorities below 2^16 (C37), a goto to a later table; a table that has rules of
    priority 0 matches every packet (else no default is filled in, see the refutation). Then the
    first rule of the result that matches a packet has the effect of the pipeline. A packet that
    misses a table keeps what was written to its action set ([false]). *)
Theorem C38_single_table_partial : forall pick rs o reg r' single, reg_ok reg -> Forall (good_rule reg o) rs -> total_tables rs ->
  to_single_table rs o reg = (r', Ok single) -> forall p, exists c, first_match single p (Some c) /\
  (exists out, executes false rs p out) /\
  (forall l out, full_actions (inst (rcore c)) = Ok l -> executes false rs p out -> no_pbb_pair out -> same_effect pick out (al_iter l)).
Proof.
  intros pick rs o reg r' single Hr Hg Ht H p. destruct (single_table_ok rs o reg r' single Hr Hg Ht H p) as (c & Fc & Hex & Hout).
  exists c. split; [auto|]. split; [auto|]. intros l out Hl He Hn. apply teq_effect; [now apply Hout|auto].
Qed.
(** The conversion succeeds, and so does reading off the actions. *)
Theorem C38_conversion_total : forall (P : action -> Prop) rs o reg, (forall x y, P x -> P y -> compat x y) ->
  reg_ok reg -> Forall (good_rule reg o) rs -> Forall (fun r => pooled P (inst (rcore r))) rs ->
  (exists r, In r rs /\ table (rcore r) = 0) -> (forall r, In r rs -> priority (rcore r) < 2 ^ 16) ->
  exists r' single, to_single_table rs o reg = (r', Ok single) /\ forall c, In c single -> exists l, full_actions (inst (rcore c)) = Ok l.
Proof.
  intros P rs o reg HP Hr Hg HPl H0 Hm. destruct (single_total P HP rs o reg Hr Hg HPl (proj2 (tables_of_in rs 0) H0) Hm) as (r' & single & E & Hs).
  exists r', single. split; [exact E|]. intros c Hc. destruct (single_tables rs o reg r' single Hr Hg E) as (_ & G & _). unfold goods in G. rewrite Forall_forall in G, Hs.
  destruct (G c Hc) as (_ & (Ia & Iw) & _). destruct (Hs c Hc) as [P1 P2]. apply (al_add_total P HP); auto. apply Iw.
Qed.
(** When no table that is reached can be missed, the two readings of a table miss agree. *)
Theorem C38_no_misses : forall rs, (forall t p, (t = 0 \/ exists r, In r rs /\ goto_table (inst (rcore r)) = Some t) -> ~ table_miss rs t p) ->
  forall p out, executes true rs p out <-> executes false rs p out.
Proof.
  intros rs H p out. assert (N := no_miss rs H). split; intros (m & app & wr & o & Hp & Hs & ->); exists m, app, wr, o; (split; [auto|]; split; [auto|]);
    rewrite (N _ _ _ _ _ _ _ (or_introl eq_refl) Hp); reflexivity.
Qed.
(** In a switch that drops packets missing a table the result differs: the action set is kept. *)
Definition ex38m : list rule :=
  [mk_r 10 0 [] (mk_full [] [OUTPUT 1] (Some 1) false None); mk_r 5 1 [("MPLS_BOS", (1, None))] (mk_full [OUTPUT 2] [] None false None)].
Lemma ex38m_good : Forall (good_rule registry_init true) ex38m.
Proof. repeat (constructor; [apply mk_good; vm_compute; reflexivity|]). constructor. Qed.
Lemma ex38m_total : total_tables ex38m.
Proof. intros r [<-|[<-|[]]] H p; discriminate H. Qed.
Definition zeros : packet := fun _ => false.
Lemma ex38m_pipeline : pipeline ex38m 0 zeros [] [] true [] [OUTPUT 1].
Proof.
  eapply pl_goto with (r := hd (r37 0 0) ex38m) (t' := 1).
  - exists [], (tl ex38m). split; [reflexivity|]. split; [reflexivity|]. split; [now apply def_accepts|]. split; [intros x []|]. intros x [<-|[]] Q; discriminate Q.
  - reflexivity.
  - change (applied_after (inst (rcore (hd (r37 0 0) ex38m))) []) with (@nil action). change (writes_after (inst (rcore (hd (r37 0 0) ex38m))) []) with [OUTPUT 1].
    apply pl_miss. intros x [<-|[<-|[]]] Q A; [discriminate Q|]. apply bos_accepts in A; [discriminate A|reflexivity].
Qed.
Theorem C38_miss_refuted : exists rs r' single p c l, Forall (good_rule registry_init true) rs /\ total_tables rs /\
  to_single_table rs true registry_init = (r', Ok single) /\ first_match single p (Some c) /\ full_actions (inst (rcore c)) = Ok l /\
  executes true rs p [] /\ forall pick out, executes true rs p out -> ~ same_effect pick out (al_iter l).
Proof.
  destruct (C38_conversion_total (fun a => In a pool) ex38m true registry_init pool_compat reg_init_ok ex38m_good) as (r' & single & E & Hl).
  { repeat (constructor; [split; vm_compute; repeat (constructor; [tauto|]); constructor|]). constructor. }
  { exists (hd (r37 0 0) ex38m). split; [now left|reflexivity]. } { intros r [<-|[<-|[]]]; reflexivity. }
  destruct (single_table_ok ex38m true registry_init r' single reg_init_ok ex38m_good ex38m_total E zeros) as (c & Fc & _ & Hout).
  destruct (Hl c) as (l & El); [now apply (first_match_in _ _ _ Fc)|].
  assert (S1 : set_list [OUTPUT 1] [OUTPUT 1]).
  { assert (H : exists s, as_of [OUTPUT 1] = Ok s /\ orig_order s = [OUTPUT 1]) by (eexists; split; vm_compute; reflexivity). destruct H as (s & Es & Eo).
    apply as_of_inv in Es. apply set_inv_list in Es. now rewrite Eo in Es. }
  assert (Tl : Permutation [OUTPUT 1] (al_iter l)).
  { apply ateq_perm. apply Hout; [exact El|]. exists true, [], [OUTPUT 1], [OUTPUT 1]. split; [exact ex38m_pipeline|]. split; [exact S1|reflexivity]. }
  apply Permutation_length_1_inv in Tl.
  exists ex38m, r', single, zeros, c, l. split; [exact ex38m_good|]. split; [exact ex38m_total|]. split; [exact E|]. split; [exact Fc|]. split; [exact El|]. split.
  - exists true, [], [OUTPUT 1], [OUTPUT 1]. split; [exact ex38m_pipeline|]. split; [exact S1|reflexivity].
  - intros pick out (m & app & wr & o & Hp & _ & ->) Q. destruct (pipeline_det _ _ _ _ _ _ _ _ _ _ _ Hp ex38m_pipeline) as (-> & -> & ->). cbn [andb app] in Q. rewrite Tl in Q.
    destruct (Q (Pkt (Frame 0 0 0 0 0 [] []) [] (fun _ => 0) 0 None)) as [_ (x & Px & Fx)]. apply Permutation_nil in Px. subst x.
    cbn in Fx. inversion Fx.
Qed.
(** A table whose rules of priority 0 do not match everything gets no default; a packet that
    misses it is then handled by a rule of the earlier table that it does not hit. *)
Definition ex38f : list rule :=
  [mk_r 10 0 [] (mk_full [] [] (Some 1) false None); mk_r 0 0 [] (mk_full [OUTPUT 9] [] None false None);
   mk_r 0 1 [("MPLS_BOS", (1, None))] (mk_full [OUTPUT 1] [] None false None)].
Definition view (c : rule) := (m_items (rmatch (rcore c)), rmap al_iter (full_actions (inst (rcore c)))).
Definition ok_with {A} (x : registry * result A) (f : A -> Prop) : Prop := match x with (_, Ok a) => f a | _ => False end.
Lemma ok_with_ex {A} (x : registry * result A) f : ok_with x f -> exists r' a, x = (r', Ok a) /\ f a.
Proof. destruct x as [r' [a|e]]; [|intros []]. intros H. exists r', a. auto. Qed.
Lemma single38f : ok_with (to_single_table ex38f true registry_init) (fun single => map view single = [(m_items (mk_match [("MPLS_BOS", (1, None))]), Ok [OUTPUT 1]); ([], Ok [OUTPUT 9])]).
Proof. vm_compute. reflexivity. Qed.
Theorem C38_incomplete_default_refuted : exists rs r' single p c l, Forall (good_rule registry_init true) rs /\
  to_single_table rs true registry_init = (r', Ok single) /\ first_match single p (Some c) /\ full_actions (inst (rcore c)) = Ok l /\
  executes false rs p [] /\ forall pick out, executes false rs p out -> ~ same_effect pick out (al_iter l).
Proof.
  assert (P : pipeline ex38f 0 zeros [] [] true [] []).
  { eapply pl_goto with (r := hd (r37 0 0) ex38f) (t' := 1).
    - exists [], (tl ex38f). split; [reflexivity|]. split; [reflexivity|]. split; [now apply def_accepts|]. split; [intros x []|].
      intros x [<-|[<-|[]]] Q _; [cbn; lia|discriminate Q].
    - reflexivity.
    - change (applied_after (inst (rcore (hd (r37 0 0) ex38f))) []) with (@nil action). change (writes_after (inst (rcore (hd (r37 0 0) ex38f))) []) with (@nil action).
      apply pl_miss. intros x [<-|[<-|[<-|[]]]] Q A; [discriminate Q|discriminate Q|]. apply bos_accepts in A; [discriminate A|reflexivity]. }
  assert (E0 : exists o, set_list [] o /\ o = []).
  { exists []. split; [|reflexivity]. assert (H := set_inv_list _ _ (as_of_inv [] _ eq_refl)). exact H. }
  destruct E0 as (o0 & S0 & ->).
  destruct (ok_with_ex _ _ single38f) as (r' & s & E & V). destruct s as [|c0 [|c1 [|c2 s]]]; try discriminate V.
  cbn [map] in V. unfold view in V. injection V as M0 A0 M1 A1. destruct (full_actions (inst (rcore c1))) as [l|] eqn:El; [|discriminate A1].
  cbn [rmap] in A1. assert (El' : al_iter l = [OUTPUT 9]) by congruence.
  exists ex38f, r', [c0; c1], zeros, c1, l.
  split; [repeat (constructor; [apply mk_good; vm_compute; reflexivity|]); constructor|]. split; [exact E|].
  split. { apply fm_miss; [|apply fm_hit; now apply def_accepts]. intros A. apply bos_accepts in A; [discriminate A|exact M0]. }
  split; [exact El|]. split. { exists true, [], [], []. auto. }
  intros pick out (m & app & wr & o & Hp & So & ->) Q. destruct (pipeline_det _ _ _ _ _ _ _ _ _ _ _ Hp P) as (-> & -> & ->). cbn [andb app] in Q.
  assert (o = []) by (apply Permutation_nil; apply ateq_perm; exact (set_list_teq [] _ _ (Forall_nil _) S0 So)). subst o.
  rewrite El' in Q.
  destruct (Q (Pkt (Frame 0 0 0 0 0 [] []) [] (fun _ => 0) 0 None)) as [_ (x & Px & Fx)]. apply Permutation_nil in Px. subst x.
  cbn in Fx. inversion Fx.
Qed.
Example C38_ex : reg_ok registry_init /\ Forall (good_rule registry_init true) ex38 /\ total_tables ex38 /\
  (exists r' single, to_single_table ex38 true registry_init = (r', Ok single)) /\
  executes false ex38 zeros [OUTPUT 9] /\ no_pbb_pair [OUTPUT 9].
Proof.
  split; [exact reg_init_ok|]. split; [exact ex38_good|]. split; [exact ex38_total|]. split; [exact ex38_runs|]. split.
  - assert (H := set_inv_list _ _ (as_of_inv [] _ eq_refl)). exists false, [OUTPUT 9], [], []. split; [|split; [exact H|reflexivity]].
    apply (pl_stop ex38 0 zeros [] [] (nth 1 ex38 (r37 0 0))); [|reflexivity].
    exists (firstn 1 ex38), (skipn 2 ex38). split; [reflexivity|]. split; [reflexivity|]. split; [now apply def_accepts|]. split.
    + intros x [<-|[]] _ A. apply bos_accepts in A; [discriminate A|reflexivity].
    + intros x [<-|[]] Q; discriminate Q.
  - intros a b [<-|[]] [<-|[]]; reflexivity.
Qed.
Print Assumptions C38_single_table_partial.
Print Assumptions C38_conversion_total.
Print Assumptions C38_no_misses.
Print Assumptions C38_miss_refuted.
Print Assumptions C38_incomplete_default_refuted.

(** ** C39 *)
(** Default rules are filled in where a table has no rule of priority 0. If the rules of
    priority 0 match everything in the tables that have some, the result matches every packet. *)
Theorem C39_every_packet_matched_partial : forall rs o reg r' single, reg_ok reg -> Forall (good_rule reg o) rs -> total_tables rs ->
  to_single_table rs o reg = (r', Ok single) -> forall p, exists c, In c single /\ rule_accepts c p.
Proof.
  intros rs o reg r' single Hr Hg Ht H p. destruct (single_table_ok rs o reg r' single Hr Hg Ht H p) as (c & Fc & _). exists c. now apply first_match_in in Fc.
Qed.
(** A rule of priority 0 with a match keeps the default from being filled in. *)
Definition ex39 : list rule := [mk_r 0 0 [("MPLS_BOS", (1, None))] (mk_full [OUTPUT 1] [] None false None)].
Lemma single39 : ok_with (to_single_table ex39 true registry_init) (fun single => map view single = [(m_items (mk_match [("MPLS_BOS", (1, None))]), Ok [OUTPUT 1])]).
Proof. vm_compute. reflexivity. Qed.
Theorem C39_every_packet_matched_refuted : exists rs r' single p, Forall (good_rule registry_init true) rs /\
  to_single_table rs true registry_init = (r', Ok single) /\ first_match single p None.
Proof.
  destruct (ok_with_ex _ _ single39) as (r' & s & E & V). destruct s as [|c0 [|c1 s]]; try discriminate V.
  cbn [map] in V. unfold view in V. injection V as M0 _. exists ex39, r', [c0], zeros. split; [repeat (constructor; [apply mk_good; vm_compute; reflexivity|]); constructor|].
  split; [exact E|]. apply fm_miss; [|apply fm_none]. intros A. apply bos_accepts in A; [discriminate A|exact M0].
Qed.
Example C39_ex : reg_ok registry_init /\ Forall (good_rule registry_init true) ex38 /\ total_tables ex38 /\
  exists r' single, to_single_table ex38 true registry_init = (r', Ok single).
Proof. split; [exact reg_init_ok|]. split; [exact ex38_good|]. split; [exact ex38_total|exact ex38_runs]. Qed.
Print Assumptions C39_every_packet_matched_partial.
Print Assumptions C39_every_packet_matched_refuted.

(** ** C40 *)
(** No two rules of one table with the same priority match a common packet: then sorting the
    result by priority again does not change which rule a packet hits. *)
Theorem C40_priority_order_partial : forall rs o reg r' single, reg_ok reg -> Forall (good_rule reg o) rs -> ForallOrdPairs (no_tie overlap) rs ->
  to_single_table rs o reg = (r', Ok single) ->
  ForallOrdPairs (fun a b => overlap a b -> priority (rcore b) < priority (rcore a)) single /\
  forall p x, first_match single p x <-> first_match (Normalise.sort_ruleset single) p x.
Proof.
  intros rs o reg r' single Hr Hg Hn H. assert (S := single_sep_overlap rs o reg r' single Hr Hg Hn H).
  destruct (single_tables rs o reg r' single Hr Hg H) as (_ & G & T). split; [exact S|].
  assert (Hok : rules_ok r' single) by (intros c Hc; unfold goods in G; rewrite Forall_forall in G; apply (G c Hc)).
  intros p x. split; [eapply sep_sort_first; eauto|]. intros F. destruct (first_match_total r' single p Hok) as (y & Fy).
  assert (F' := sep_sort_first _ _ _ _ Hok T S Fy). now rewrite (first_match_unique _ _ _ _ F F').
Qed.
(** Distinct priorities within each table: the result is in strictly decreasing priority order. *)
Theorem C40_distinct_priorities : forall rs o reg r' single, reg_ok reg -> Forall (good_rule reg o) rs ->
  (forall a b l1 l2 l3, rs = l1 ++ a :: l2 ++ b :: l3 -> table (rcore a) = table (rcore b) -> priority (rcore a) <> priority (rcore b)) ->
  to_single_table rs o reg = (r', Ok single) ->
  StronglySorted (fun a b => priority (rcore b) < priority (rcore a)) single /\ Normalise.sort_ruleset single = single.
Proof.
  intros rs o reg r' single Hr Hg Hn H. destruct (single_tables rs o reg r' single Hr Hg H) as (_ & _ & T).
  assert (S : StronglySorted (fun a b => priority (rcore b) < priority (rcore a)) single).
  { apply (single_sep_all rs o reg r' single Hr Hg); [|exact H]. clear - Hn. induction rs as [|a l IH]; constructor.
    - apply Forall_forall. intros b Hb Et Ep _. apply in_split in Hb as (l2 & l3 & ->). now apply (Hn a b [] l2 l3).
    - apply IH. intros x y l1 l2 l3 ->. apply (Hn x y (a :: l1) l2 l3). reflexivity. }
  split; [exact S|]. now apply sorted_fixed.
Qed.
(** With a tie the order of the list and the order of the priorities disagree: the rule that
    stays in table 0 comes first, the merged one has the higher number. *)
Definition ex40 : list rule :=
  [mk_r 5 0 [] (mk_full [OUTPUT 1] [] None false None); mk_r 5 0 [] (mk_full [] [] (Some 1) false None); mk_r 9 1 [] (mk_full [OUTPUT 2] [] None false None)].
Definition view' (c : rule) := (m_items (rmatch (rcore c)), rule_actions c).
Lemma single40 : ok_with (to_single_table ex40 true registry_init) (fun single => map view' (firstn 1 single) = [([], Ok [(1, [OUTPUT 1])])] /\ map view' (firstn 1 (Normalise.sort_ruleset single)) = [([], Ok [(2, [OUTPUT 2])])]).
Proof. vm_compute. split; reflexivity. Qed.
Theorem C40_ties_refuted : exists rs r' single p c c', Forall (good_rule registry_init true) rs /\ total_tables rs /\
  to_single_table rs true registry_init = (r', Ok single) /\ first_match single p (Some c) /\ first_match (Normalise.sort_ruleset single) p (Some c') /\
  rule_actions c = Ok [(1, [OUTPUT 1])] /\ rule_actions c' = Ok [(2, [OUTPUT 2])].
Proof.
  destruct (ok_with_ex _ _ single40) as (r' & single & E & V1 & V2).
  destruct single as [|c l]; [discriminate V1|]. destruct (Normalise.sort_ruleset (c :: l)) as [|c' l'] eqn:E2; [discriminate V2|].
  cbn [map firstn] in V1, V2. unfold view' in V1, V2. injection V1 as M1 A1. injection V2 as M2 A2.
  exists ex40, r', (c :: l), zeros, c, c'.
  split; [repeat (constructor; [apply mk_good; vm_compute; reflexivity|]); constructor|].
  split; [intros r [<-|[<-|[<-|[]]]] Q; discriminate Q|]. split; [exact E|].
  split; [apply fm_hit; now apply def_accepts|]. split; [rewrite E2; apply fm_hit; now apply def_accepts|]. split; [exact A1|exact A2].
Qed.
Example C40_ex : reg_ok registry_init /\ Forall (good_rule registry_init true) ex38 /\ ForallOrdPairs (no_tie overlap) ex38 /\
  (forall a b l1 l2 l3, ex38 = l1 ++ a :: l2 ++ b :: l3 -> table (rcore a) = table (rcore b) -> priority (rcore a) <> priority (rcore b)) /\
  exists r' single, to_single_table ex38 true registry_init = (r', Ok single).
Proof.
  split; [exact reg_init_ok|]. split; [exact ex38_good|].
  assert (D : ForallOrdPairs (fun a b => table (rcore a) = table (rcore b) -> priority (rcore a) <> priority (rcore b)) ex38).
  { repeat (constructor; [repeat (constructor; [vm_compute; congruence|]); constructor|]). constructor. }
  split; [|split; [|exact ex38_runs]].
  - clear - D. induction D as [|a l F D IH]; constructor; auto. eapply Forall_impl; [|exact F]. intros b Q T P. now elim (Q T).
  - intros a b l1 l2 l3 E. rewrite E in D. clear E. induction l1 as [|x l1 IH]; inversion D as [|? ? F D']; subst; [|auto].
    rewrite Forall_forall in F. apply F, in_or_app. right. now left.
Qed.
Print Assumptions C40_priority_order_partial.
Print Assumptions C40_distinct_priorities.
Print Assumptions C40_ties_refuted.

(** ** C62 *)
(** The path recorded with the rule that a packet hits in the single table lists, in order, the
    rules the packet hits in the pipeline (with their priorities rescaled), and the
    filled-in default of the table that the packet misses if it misses one. *)
Theorem C62_path_is_route : forall rs o reg r' single, reg_ok reg -> Forall (good_rule reg o) rs -> total_tables rs -> (forall r, In r rs -> path r = []) ->
  to_single_table rs o reg = (r', Ok single) -> forall p c, first_match single p (Some c) ->
  exists route cs extra, visits rs 0 p route /\ Forall2 (fun r d => same_rule (rcore r) d) route cs /\ path c = cs ++ extra /\
    (extra = [] \/ exists t, extra = [default_core t]).
Proof. exact single_visits. Qed.
(** In particular no recorded path is empty, and rules with the same path match the same packets
    (which C24 needs). *)
Theorem C62_paths_tell_rules_apart : forall rs o reg r' single, reg_ok reg -> Forall (good_rule reg o) rs -> (forall r, In r rs -> path r = []) ->
  to_single_table rs o reg = (r', Ok single) ->
  (forall c, In c single -> path c <> []) /\
  forall c d, In c single -> In d single -> Normalise.path_eqb (path c) (path d) = true -> forall p, rule_accepts c p <-> rule_accepts d p.
Proof. intros rs o reg r' single Hr Hg Hp H. exact (single_paths_tell rs o reg r' single Hr Hg Hp H). Qed.
Example C62_ex : reg_ok registry_init /\ Forall (good_rule registry_init true) ex38 /\ total_tables ex38 /\ (forall r, In r ex38 -> path r = []) /\
  (exists r' single, to_single_table ex38 true registry_init = (r', Ok single)) /\ visits ex38 0 zeros [nth 1 ex38 (r37 0 0)].
Proof.
  split; [exact reg_init_ok|]. split; [exact ex38_good|]. split; [exact ex38_total|]. split; [intros r [<-|[<-|[<-|[]]]]; reflexivity|]. split; [exact ex38_runs|].
  apply vs_stop; [|reflexivity]. exists (firstn 1 ex38), (skipn 2 ex38). split; [reflexivity|]. split; [reflexivity|]. split; [now apply def_accepts|]. split.
  - intros x [<-|[]] _ A. apply bos_accepts in A; [discriminate A|reflexivity].
  - intros x [<-|[]] Q; discriminate Q.
Qed.
Print Assumptions C62_path_is_route.
Print Assumptions C62_paths_tell_rules_apart.

(** ** C24 for converted rulesets *)
(** On rulesets converted to a single table the conflicting pairs reported are exactly the pairs
    of paths of the rules that the differing packets hit. *)
Theorem C24_conflicts_of_single_tables : forall SHIFT acts diff A B o reg regA regB SA SB, 0 < SHIFT -> SHIFT mod 2 = 0 -> hd_error acts = Some DIFFERENT ->
  reg_ok reg -> Forall (good_rule reg o) A -> Forall (good_rule reg o) B -> (forall r, In r A -> path r = []) ->
  to_single_table A o reg = (regA, Ok SA) -> to_single_table B o regA = (regB, Ok SB) ->
  add_wf 0 diff -> (forall p, adenote diff p = 0 \/ adenote diff p = 1) ->
  exists res, find_conflicting_paths SHIFT acts diff SA SB true = Ok (acts, res) /\
    ForallOrdPairs (fun x y => Normalise.path_eqb (fst x) (fst y) = false) res /\
    forall P Q, (exists Qs, In (P, Qs) res /\ In Q Qs) <->
      exists p x x', adenote diff p <> 0 /\ first_match SA p x /\ first_match SB p x' /\ P = path_of x /\ Q = path_of x'.
Proof.
  intros SHIFT acts diff A B o reg regA regB SA SB Hs He Ha Hr HA HB PA EA EB W Bd.
  apply (good_rules_mono _ _ _ _ (single_rle A o reg regA SA Hr HA EA)) in HB.
  destruct (single_tables A o reg regA SA Hr HA EA) as (RA & GA & TA). destruct (single_tables B o regA regB SB RA HB EB) as (RB & GB & TB).
  unfold goods in *. rewrite Forall_forall in GA, GB, TA, TB. destruct (single_paths_tell A o reg regA SA Hr HA PA EA) as [P1 P2].
  assert (L : rle regA regB) by (exact (single_rle B o regA regB SB RA HB EB)).
  apply (C24_conflicting_paths_partial SHIFT regB acts diff SA SB); auto.
  - intros c Hc. eapply match_ok_mono; [exact L|]. apply (GA c Hc).
  - intros c Hc. apply (GB c Hc).
Qed.
Print Assumptions C24_conflicts_of_single_tables.

(** ** C63 *)
(** The tool from end to end: two rulesets converted to a single table each, normalised and
    found equal; then every packet leaves both pipelines in the same copies on the same ports,
    provided the actions executed on it are plain (known to C30) and output to a port once. *)
Theorem C63_equal_means_same_forwarding : forall SHIFT A B o reg regA regB SA SB acts a1 ba a2 bb, 0 < SHIFT -> SHIFT mod 2 = 0 ->
  reg_ok reg -> Forall (good_rule reg o) A -> Forall (good_rule reg o) B -> total_tables A -> total_tables B ->
  to_single_table A o reg = (regA, Ok SA) -> to_single_table B o regA = (regB, Ok SB) -> NoDup acts ->
  normalise_dc SHIFT None acts SA = Ok (a1, ba) -> normalise_dc SHIFT None a1 SB = Ok (a2, bb) -> check_equal_exact ba bb = true ->
  forall pick p xs ys, executes false A p xs -> executes false B p ys ->
  Forall wf_act xs -> Forall wf_act ys -> NoDup (ports xs) -> NoDup (ports ys) ->
  forall q, same_outs (run_out pick xs q) (run_out pick ys q).
Proof.
  intros SHIFT A B o reg regA regB SA SB acts a1 ba a2 bb Hs He Hr HA HB TA TB EA EB N NA NB' C pick p xs ys XA XB WX WY NX NY.
  apply (good_rules_mono _ _ _ _ (single_rle A o reg regA SA Hr HA EA)) in HB.
  destruct (single_tables A o reg regA SA Hr HA EA) as (RA & GA & _). destruct (single_tables B o regA regB SB RA HB EB) as (RB & GB & _).
  unfold goods in *. rewrite Forall_forall in GA, GB.
  assert (OA : rules_ok regA SA) by (intros c Hc; apply (GA c Hc)). assert (OB : rules_ok regB SB) by (intros c Hc; apply (GB c Hc)).
  assert (QA : SA <> []) by (intros ->; discriminate NA). assert (QB : SB <> []) by (intros ->; discriminate NB').
  rewrite (dc_agrees_any SHIFT None regA SA acts Hs He OA QA N) in NA.
  assert (N1 : NoDup a1).
  { destruct (all_entries None SA) as [es|e] eqn:E; [|rewrite naive_eq, E in NA; destruct (one_table SA); discriminate NA].
    destruct (entries_ok None regA SA OA es E) as [W _]. eapply naive_sem in NA as (_ & X & _); eauto. }
  rewrite (dc_agrees_any SHIFT None regB SB a1 Hs He OB QB N1) in NB'.
  assert (D := proj1 (check_equal_decides2 SHIFT Hs He regA regB SA SB acts a1 ba a2 bb OA OB N NA NB') C).
  destruct (single_table_ok A o reg regA SA Hr HA TA EA p) as (rA & FA & _ & SemA). destruct (single_table_ok B o regA regB SB RA HB TB EB p) as (rB & FB & _ & SemB).
  destruct (rule_actions rA) as [d|e] eqn:E.
  2:{ destruct (first_match_in _ _ _ FA) as [Ir _]. assert (X := naive_err_actions SHIFT SA acts rA e Ir E). rewrite NA in X. discriminate X. }
  assert (PA : prescribes SA p (Some d)) by (right; exists rA, d; auto). apply D in PA as [[_ X]|(rB' & d' & F' & E' & X)]; [discriminate X|].
  injection X as <-. assert (Y := first_match_unique _ _ _ _ FB F'). injection Y as <-.
  unfold rule_actions in E, E'. destruct (full_actions (inst (rcore rA))) as [la|] eqn:LA; [|discriminate E].
  destruct (full_actions (inst (rcore rB))) as [lb|] eqn:LB; [|discriminate E']. cbn [rbind] in E, E'.
  eapply (per_output_teq_eq pick xs ys la lb d d); eauto. reflexivity.
Qed.
(** Without a table miss the same holds of a switch that drops packets missing a table. *)
Theorem C63_equal_means_same_forwarding_no_misses : forall SHIFT A B o reg regA regB SA SB acts a1 ba a2 bb, 0 < SHIFT -> SHIFT mod 2 = 0 ->
  reg_ok reg -> Forall (good_rule reg o) A -> Forall (good_rule reg o) B -> total_tables A -> total_tables B ->
  (forall rs t p, rs = A \/ rs = B -> (t = 0 \/ exists r, In r rs /\ goto_table (inst (rcore r)) = Some t) -> ~ table_miss rs t p) ->
  to_single_table A o reg = (regA, Ok SA) -> to_single_table B o regA = (regB, Ok SB) -> NoDup acts ->
  normalise_dc SHIFT None acts SA = Ok (a1, ba) -> normalise_dc SHIFT None a1 SB = Ok (a2, bb) -> check_equal_exact ba bb = true ->
  forall pick p xs ys, executes true A p xs -> executes true B p ys ->
  Forall wf_act xs -> Forall wf_act ys -> NoDup (ports xs) -> NoDup (ports ys) ->
  forall q, same_outs (run_out pick xs q) (run_out pick ys q).
Proof.
  intros SHIFT A B o reg regA regB SA SB acts a1 ba a2 bb Hs He Hr HA HB TA TB NM EA EB N NA NB' C pick p xs ys XA XB W1 W2 W3 W4.
  apply C38_no_misses in XA; [|intros t q; apply NM; now left]. apply C38_no_misses in XB; [|intros t q; apply NM; now right].
  exact (C63_equal_means_same_forwarding SHIFT A B o reg regA regB SA SB acts a1 ba a2 bb Hs He Hr HA HB TA TB EA EB N NA NB' C pick p xs ys XA XB W1 W2 W3 W4).
Qed.
(** [ex38] and a ruleset for a single table *)
Definition ex63 : list rule := [mk_r 3 0 [("MPLS_BOS", (1, None))] (mk_full [SETF "VLAN_VID" 7] [] None false None); mk_r 0 0 [] (mk_full [OUTPUT 9] [] None false None)].
Lemma ex63_good : Forall (good_rule registry_init true) ex63.
Proof. repeat (constructor; [apply mk_good; vm_compute; reflexivity|]). constructor. Qed.
Lemma ex63_total : total_tables ex63.
Proof.
  intros r [<-|[<-|[]]] H p; try discriminate H. exists (mk_r 0 0 [] (mk_full [OUTPUT 9] [] None false None)).
  split; [right; now left|]. split; [reflexivity|]. now apply def_accepts.
Qed.
Example C63_ex : reg_ok registry_init /\ Forall (good_rule registry_init true) ex63 /\ total_tables ex63 /\
  (forall t p, (t = 0 \/ exists r, In r ex63 /\ goto_table (inst (rcore r)) = Some t) -> ~ table_miss ex63 t p) /\
  with_ok (snd (to_single_table ex63 true registry_init)) (fun st => st <> [] /\
    forall c, In c st -> is_ok (rule_actions c) = true) /\ NoDup acts_init /\ executes false ex63 zeros [OUTPUT 9] /\ Forall wf_act [OUTPUT 9] /\ NoDup (ports [OUTPUT 9]).
Proof.
  split; [exact reg_init_ok|]. split; [exact ex63_good|]. split; [exact ex63_total|]. split.
  { intros t p [->|(r & [<-|[<-|[]]] & Q)] M; [|discriminate Q|discriminate Q].
    apply (M (mk_r 0 0 [] (mk_full [OUTPUT 9] [] None false None))); [right; now left|reflexivity|]. now apply def_accepts. }
  split.
  { assert (E : match snd (to_single_table ex63 true registry_init) with Ok st => st <> [] /\ forallb (fun c => is_ok (rule_actions c)) st = true | Err _ => False end)
      by (vm_compute; split; [discriminate|reflexivity]).
    unfold with_ok. destruct (snd (to_single_table ex63 true registry_init)) as [st|]; [|exact E]. destruct E as [E1 E2]. split; [exact E1|]. now apply forallb_forall. }
  split; [repeat constructor; intros []|]. split.
  { assert (H := set_inv_list _ _ (as_of_inv [] _ eq_refl)). exists false, [OUTPUT 9], [], []. split; [|split; [exact H|reflexivity]].
    apply (pl_stop ex63 0 zeros [] [] (nth 1 ex63 (r37 0 0))); [|reflexivity].
    exists (firstn 1 ex63), (skipn 2 ex63). split; [reflexivity|]. split; [reflexivity|]. split; [now apply def_accepts|]. split.
    + intros x [<-|[]] _ A. apply bos_accepts in A; [discriminate A|reflexivity].
    + intros x []. }
  split; [constructor; [|constructor]; apply wf_other; [discriminate|reflexivity]|]. cbn. repeat constructor; intros [].
Qed.
Print Assumptions C63_equal_means_same_forwarding.
Print Assumptions C63_equal_means_same_forwarding_no_misses.
