(** Theorems for C27-C32: action lists and action sets. *)
From Verif Require Import SpecAction SpecExec ActionProofs ExecProofs RedundantProofs PerOutputProofs ActionSetProofs.
Local Open Scope string_scope.
Local Open Scope list_scope.
Local Open Scope Z_scope.

(** Shorthand for the examples. *)
Definition SF (f : string) (v : Z) : action := ("SET_FIELD", VSet f v).
Definition OUT (n : Z) : action := ("OUTPUT", VInt n).
Definition fr0 : frame := Frame 1 2 2048 0 0 [Vlan 33024 5 0] [].
Definition p0 : pkt := Pkt fr0 [] (fun _ => 0) 64 None.
Definition pick0 : list (list action) -> nat := fun _ => 0%nat.

(** ** C27 *)
(** Two lists are equal exactly when one sequence is reached from the other by swapping
    neighbours that the dependency table calls independent. *)
Theorem C27_equal_iff_swaps : forall xs ys a b, al_of xs = Ok a -> al_of ys = Ok b ->
  (al_eqb a b = true <-> trace_eq (fun x y => depends x y = Ok false) xs ys).
Proof. intros xs ys a b Ha Hb. apply al_eqb_iff; now apply al_of_ok. Qed.
(** Iteration is a permutation reached by such swaps, and keeps the order of dependent actions. *)
Theorem C27_iteration_canonical : forall xs l, al_of xs = Ok l ->
  trace_eq (fun x y => depends x y = Ok false) xs (al_iter l) /\ Permutation xs (al_iter l) /\
  (forall x y, depends x y = Ok true -> filter (fun c => act_eqb c x || act_eqb c y) xs = filter (fun c => act_eqb c x || act_eqb c y) (al_iter l)).
Proof.
  intros xs l H. pose proof (al_ok_iter _ _ (al_of_ok _ _ H)) as T. split; [exact T|]. split; [now apply ateq_perm|].
  intros x y D. apply teq_project; auto.
Qed.
(** Every well-formed sequence can be appended: known actions that are pairwise comparable. *)
Theorem C27_append_total : forall xs, (forall a b, In a xs -> In b xs -> known a = true /\ known b = true /\ act_cmp a b <> None) ->
  exists l, al_of xs = Ok l.
Proof. intros xs H. apply al_of_total. intros a b Ha Hb. destruct (H a b Ha Hb) as (H1 & H2 & H3). split; [auto|split; auto]. Qed.
(** Whether appending succeeds, and what it builds, does not depend on the order of independent actions. *)
Theorem C27_success_is_canonical : forall xs ys l, al_of xs = Ok l ->
  trace_eq (fun x y => depends x y = Ok false) xs ys -> exists l', al_of ys = Ok l' /\ al_iter l' = al_iter l.
Proof. intros xs ys l H T. destruct (al_of_teq xs ys l H T) as (l' & E & L). exists l'. split; auto. unfold al_iter. now rewrite L. Qed.

Example C27_ex_equal : exists a b, al_of [SF "ETH_DST" 1; SF "IPV4_SRC" 7; OUT 1; OUT 2] = Ok a /\
  al_of [SF "IPV4_SRC" 7; SF "ETH_DST" 1; OUT 2; OUT 1] = Ok b /\ al_eqb a b = true.
Proof. do 2 eexists. vm_compute. repeat split. Qed.
Example C27_ex_different : exists a b, al_of [SF "ETH_DST" 1; OUT 1; SF "IPV4_SRC" 7] = Ok a /\
  al_of [SF "ETH_DST" 1; SF "IPV4_SRC" 7; OUT 1] = Ok b /\ al_eqb a b = false.
Proof. do 2 eexists. vm_compute. repeat split. Qed.
Example C27_ex_total : forall a b, In a [SF "ETH_DST" 1; OUT 1; SF "IPV4_SRC" 7] -> In b [SF "ETH_DST" 1; OUT 1; SF "IPV4_SRC" 7] ->
  known a = true /\ known b = true /\ act_cmp a b <> None.
Proof.
  intros a b Ha Hb. cbn [In] in Ha, Hb.
  repeat (destruct Ha as [<- | Ha]; [|]); try contradiction; repeat (destruct Hb as [<- | Hb]; [|]); try contradiction;
    (split; [reflexivity|split; [reflexivity|vm_compute; discriminate]]).
Qed.

(** ** C28 *)
(** Full claim: independent actions commute on every packet. It fails for the PBB actions: the
    table lets VLAN and MPLS actions cross PUSH_PBB/POP_PBB, which change the frame they act on. *)
Theorem C28_table_sound_refuted : exists a b p, depends a b = Ok false /\ ~ same_pkt (run_pkt [a; b] p) (run_pkt [b; a] p).
Proof.
  exists (SF "VLAN_VID" 9), ("PUSH_PBB", VInt 35047), p0. split; [reflexivity|]. intros (H & H2 & _). vm_compute in H2. discriminate H2.
Qed.
(** All other pairs: same headers, tags, TTLs and queue, same emitted copies. *)
Theorem C28_table_sound_partial : forall pick a b, depends a b = Ok false -> pbb_pair a b = false -> same_effect pick [a; b] [b; a].
Proof. intros. now apply swap_effect. Qed.
(** Hence canonical reordering and list equality preserve what is done to every packet. *)
Theorem C28_equal_lists_same_effect_partial : forall pick xs ys a b, al_of xs = Ok a -> al_of ys = Ok b -> no_pbb_pair xs ->
  al_eqb a b = true -> same_effect pick xs ys.
Proof.
  intros pick xs ys a b Ha Hb Hn E. apply teq_effect; auto. eapply al_eqb_iff; [apply al_of_ok, Ha|apply al_of_ok, Hb|exact E].
Qed.
Theorem C28_iteration_same_effect_partial : forall pick xs l, al_of xs = Ok l -> no_pbb_pair xs -> same_effect pick xs (al_iter l).
Proof. intros pick xs l H Hn. apply teq_effect; auto. apply al_ok_iter, al_of_ok, H. Qed.

Example C28_ex : depends ("PUSH_VLAN", VInt 33024) (SF "ETH_DST" 3) = Ok false /\ pbb_pair ("PUSH_VLAN", VInt 33024) (SF "ETH_DST" 3) = false /\
  run_pkt [("PUSH_VLAN", VInt 33024); SF "ETH_DST" 3] p0 = Pkt (Frame 3 2 2048 0 0 [Vlan 33024 5 0; Vlan 33024 5 0] []) [] (fun _ => 0) 64 None.
Proof. vm_compute. repeat split. Qed.
Example C28_ex_list : no_pbb_pair [("PUSH_VLAN", VInt 33024); SF "VLAN_VID" 7; SF "ETH_DST" 3; OUT 1].
Proof. apply plain_no_pbb. reflexivity. Qed.

(** ** C29 *)
(** remove() after appends that were not made in canonical order keeps an old copy of an action
    and loses another one: here removing ETH_SRC:=2 loses ETH_DST:=2 and doubles ETH_SRC:=1. *)
Theorem C29_remove_refuted : exists xs x l l', al_of xs = Ok l /\ al_remove l x = Ok l' /\
  ~ Permutation (x :: al_iter l') xs /\ Permutation (x :: orig_order l') xs.
Proof.
  exists [SF "ETH_DST" 1; SF "ETH_DST" 2; SF "ETH_SRC" 1; SF "ETH_SRC" 2], (SF "ETH_SRC" 2).
  do 2 eexists. split; [vm_compute; reflexivity|]. split; [vm_compute; reflexivity|]. split.
  - intros P. apply Permutation_sym in P. apply (Permutation_in (SF "ETH_DST" 2)) in P; [|right; left; reflexivity].
    vm_compute in P. repeat (destruct P as [P|P]; [discriminate P|]). exact P.
  - cbn [orig_order]. apply (Permutation_app_comm [_] [_; _; _]).
Qed.
(** When the actions were appended in canonical order, one occurrence is removed and the result
    is the canonical list of the others. *)
Theorem C29_remove_canonical_partial : forall xs x l l', al_of xs = Ok l -> al_iter l = xs -> al_remove l x = Ok l' ->
  exists ys, list_remove x xs = Some ys /\ Permutation xs (x :: ys) /\ trace_eq (fun a b => depends a b = Ok false) ys (al_iter l') /\
    (forall m, al_of ys = Ok m -> al_iter m = al_iter l').
Proof.
  intros xs x l l' H E Hr. apply al_of_ok in H. assert (H0 : al_ok l (al_iter l)) by (now rewrite E).
  destruct (al_remove_ok l x l' H0 Hr) as (ys & E1 & E2). rewrite E in E1. exists ys. split; auto. split.
  - clear - E1. revert ys E1. induction xs as [|y xs IH]; intros ys E1; cbn in E1; [discriminate|]. destruct (act_eqb y x) eqn:Eq.
    + injection E1 as <-. apply act_eqb_eq in Eq. now subst.
    + destruct (list_remove x xs) as [zs|] eqn:Ez; [|discriminate]. injection E1 as <-. rewrite (IH zs eq_refl). constructor.
  - split; [now apply al_ok_iter|]. intros m Hm. apply al_of_ok in Hm. unfold al_iter. f_equal.
    eapply al_ok_levels_eq; [exact Hm|exact E2|apply te_refl].
Qed.
(** copy(add, remove) with two or more removals rebuilds the list and is always right; with
    none it appends. *)
Theorem C29_copy_partial : forall xs l add rs l', al_of xs = Ok l -> length rs <> 1%nat -> al_copy l add rs = Ok l' ->
  exists ys, remove_each rs xs = Ok ys /\ trace_eq (fun a b => depends a b = Ok false) (ys ++ add) (al_iter l').
Proof.
  intros xs l add rs l' H Hn Hc. apply al_of_ok in H. destruct rs as [|r1 [|r2 rs]].
  - exists xs. split; [reflexivity|]. apply al_ok_iter. eapply copy_add_ok; eauto.
  - cbn in Hn. congruence.
  - destruct (remove_each_copy _ _ _ _ _ _ _ H Hc) as (ys & E & Ho). exists ys. split; auto. now apply al_ok_iter.
Qed.
Example C29_ex : exists l l', al_of [SF "ETH_DST" 1; SF "ETH_SRC" 1; SF "ETH_DST" 2; SF "ETH_SRC" 2] = Ok l /\
  al_iter l = [SF "ETH_DST" 1; SF "ETH_SRC" 1; SF "ETH_DST" 2; SF "ETH_SRC" 2] /\ al_remove l (SF "ETH_SRC" 1) = Ok l' /\
  al_iter l' = [SF "ETH_DST" 1; SF "ETH_SRC" 2; SF "ETH_DST" 2].
Proof. do 2 eexists. vm_compute. repeat split. Qed.
Example C29_ex_copy : exists l l', al_of [SF "ETH_DST" 1; SF "ETH_DST" 2; SF "ETH_SRC" 1; SF "ETH_SRC" 2] = Ok l /\
  al_copy l [OUT 1] [SF "ETH_SRC" 2; SF "ETH_DST" 1] = Ok l' /\ al_iter l' = [SF "ETH_DST" 2; SF "ETH_SRC" 1; OUT 1].
Proof. do 2 eexists. vm_compute. repeat split. Qed.

(** ** C30 *)
Lemma outs_one_top q r n m : same_outs [(n, q)] [(m, r)] -> p_top q = p_top r.
Proof.
  intros (c & P & F). apply Permutation_length_1_inv in P. subst c. inversion F as [|? ? ? ? H _]; subst. destruct H as [_ [H _]]. exact H.
Qed.
Lemma outs_length a b : same_outs a b -> length a = length b.
Proof.
  intros (c & P & F). rewrite (Permutation_length P). clear P. induction F; cbn; auto.
Qed.
(** A port that is written twice is counted once, with the later actions. *)
Theorem C30_duplicate_port_refuted : exists xs ys lx ly d p, al_of xs = Ok lx /\ al_of ys = Ok ly /\
  per_output_actions lx = Ok d /\ per_output_actions ly = Ok d /\ ~ same_outs (run_out pick0 xs p) (run_out pick0 ys p).
Proof.
  exists [OUT 1; SF "ETH_DST" 9; OUT 1], [SF "ETH_DST" 9; OUT 1]. do 3 eexists. exists p0.
  split; [vm_compute; reflexivity|]. split; [vm_compute; reflexivity|]. split; [vm_compute; reflexivity|]. split; [vm_compute; reflexivity|].
  intros H. apply outs_length in H. vm_compute in H. discriminate H.
Qed.
(** A select group is indistinguishable from an all group. *)
Theorem C30_select_group_refuted : exists xs ys lx ly d p, al_of xs = Ok lx /\ al_of ys = Ok ly /\
  per_output_actions lx = Ok d /\ per_output_actions ly = Ok d /\ ~ same_outs (run_out pick0 xs p) (run_out pick0 ys p).
Proof.
  exists [("GROUP", VGroup "select" [[OUT 1]; [OUT 2]])], [("GROUP", VGroup "all" [[OUT 1]; [OUT 2]])]. do 3 eexists. exists p0.
  split; [vm_compute; reflexivity|]. split; [vm_compute; reflexivity|]. split; [vm_compute; reflexivity|]. split; [vm_compute; reflexivity|].
  intros H. apply outs_length in H. vm_compute in H. discriminate H.
Qed.
(** Redundancy removal cancels an MPLS push and pop although what happens between them matters. *)
Theorem C30_mpls_refuted : exists xs ys lx ly d p, al_of xs = Ok lx /\ al_of ys = Ok ly /\
  per_output_actions lx = Ok d /\ per_output_actions ly = Ok d /\ ~ same_outs (run_out pick0 xs p) (run_out pick0 ys p).
Proof.
  exists [("PUSH_MPLS", VInt 34887); ("POP_MPLS", VInt 2054); OUT 1], [OUT 1]. do 3 eexists. exists p0.
  split; [vm_compute; reflexivity|]. split; [vm_compute; reflexivity|]. split; [vm_compute; reflexivity|]. split; [vm_compute; reflexivity|].
  intros H. vm_compute in H. apply outs_one_top in H. discriminate H.
Qed.
(** Each port at most once, groups of type all or indirect (nested to any depth), no
    PUSH_MPLS, PUSH_PBB or POP_PBB: equal values mean the same copies on every packet. *)
Theorem C30_equal_per_output_partial : forall pick xs ys lx ly dx dy, Forall wf_act xs -> Forall wf_act ys ->
  NoDup (ports xs) -> NoDup (ports ys) -> al_of xs = Ok lx -> al_of ys = Ok ly ->
  per_output_actions lx = Ok dx -> per_output_actions ly = Ok dy -> (forall kv, In kv dx <-> In kv dy) ->
  forall p, same_outs (run_out pick xs p) (run_out pick ys p).
Proof. intros. eapply per_output_eq; eauto. Qed.
(** Running the per-port lists one by one gives the copies of the original list. *)
Theorem C30_per_output_meaning_partial : forall pick xs l d, Forall wf_act xs -> NoDup (ports xs) -> al_of xs = Ok l -> per_output_actions l = Ok d ->
  NoDup (map fst d) /\ forall p, same_outs (flat_map (fun kv => run_out pick (snd kv) p) d) (run_out pick xs p).
Proof. intros pick xs l d H1 H2 H3 H4. exact (per_output_sem pick xs l d H1 H2 H3 H4). Qed.
(** The values are sorted by port, so the model's list equality is equality of the frozensets. *)
Theorem C30_value_equality : forall lx ly dx dy, per_output_actions lx = Ok dx -> per_output_actions ly = Ok dy ->
  (dx = dy <-> (forall kv, In kv dx <-> In kv dy)).
Proof.
  intros lx ly dx dy Hx Hy. split; [intros ->; reflexivity|]. intros H. apply po_sorted_eq; auto; eapply per_output_sorted; eauto.
Qed.
Definition ex30 : list action := [SF "ETH_DST" 3; ("GROUP", VGroup "all" [[SF "IPV4_SRC" 4; OUT 1]; [OUT 2]]); SF "ETH_SRC" 5; OUT 3].
Example C30_ex : Forall wf_act ex30 /\ NoDup (ports ex30) /\ exists l, al_of ex30 = Ok l /\
  per_output_actions l = Ok [(1, [SF "ETH_DST" 3; SF "IPV4_SRC" 4; OUT 1]); (2, [SF "ETH_DST" 3; OUT 2]); (3, [SF "ETH_DST" 3; SF "ETH_SRC" 5; OUT 3])].
Proof.
  split; [|split].
  - unfold ex30. constructor; [apply wf_other; [discriminate|reflexivity]|]. constructor.
    + apply wf_group; auto. intros b a Hb Ha. cbn [In] in Hb. destruct Hb as [<- | [<- | []]]; cbn [In] in Ha.
      * destruct Ha as [<- | [<- | []]]; apply wf_other; try discriminate; reflexivity.
      * destruct Ha as [<- | []]; apply wf_other; try discriminate; reflexivity.
    + constructor; [apply wf_other; [discriminate|reflexivity]|]. constructor; [apply wf_other; [discriminate|reflexivity]|]. constructor.
  - vm_compute. repeat constructor; cbn; intros H; repeat (destruct H as [H|H]; [discriminate H|]); exact H.
  - eexists. vm_compute. split; reflexivity.
Qed.

(** ** C31 *)
Theorem C31_mpls_refuted : exists l l' p, remove_redundant_list l = Ok l' /\ ~ same_pkt (run_pkt l p) (run_pkt l' p).
Proof.
  exists [("PUSH_MPLS", VInt 34887); ("POP_MPLS", VInt 2054)], [], p0. split; [reflexivity|]. intros (H & _). vm_compute in H. discriminate H.
Qed.
Theorem C31_mpls_ttl_refuted : exists l l' p, remove_redundant_list l = Ok l' /\ ~ same_pkt (run_pkt l p) (run_pkt l' p).
Proof.
  exists [("PUSH_MPLS", VInt 34887); ("SET_MPLS_TTL", VInt 5); ("POP_MPLS", VInt 2048)], [("SET_MPLS_TTL", VInt 5)],
    (Pkt (Frame 1 2 34887 0 0 [] [Mpls 7 0 1 64]) [] (fun _ => 0) 64 None).
  split; [reflexivity|]. intros (H & _). vm_compute in H. discriminate H.
Qed.
(** Lists without PUSH_MPLS, PUSH_PBB and POP_PBB whose outputs come last (as on every per-port list). *)
Theorem C31_same_effect_partial : forall pick l l', plain_list l -> remove_redundant_list l = Ok l' -> same_effect pick l l'.
Proof. intros. now apply remove_redundant_effect. Qed.
(** The loop that cancels pairs ends, on every list of known actions, and only drops actions. *)
Theorem C31_terminates : forall l, Forall (fun a => known a = true) l ->
  exists l', remove_redundant_list l = Ok l' /\ sublist l' l.
Proof. intros l H. destruct (remove_redundant_total l H) as (l' & E). exists l'. split; auto. now apply remove_redundant_sub. Qed.
Definition ex31 : list action :=
  [SF "VLAN_VID" 6; ("PUSH_VLAN", VInt 33024); SF "VLAN_VID" 7; ("POP_VLAN", VNone); SF "ETH_DST" 1; SF "ETH_DST" 2; ("POP_VLAN", VNone); OUT 1].
Example C31_ex : plain_list ex31 /\ remove_redundant_list ex31 = Ok [SF "ETH_DST" 2; ("POP_VLAN", VNone); OUT 1] /\
  forallb known ex31 = true.
Proof. vm_compute. repeat split. Qed.

(** ** C32 *)
(** What an action set must hold after writing [xs]: of each kind (each field, for SET_FIELD)
    the latest action; a group hides every output. *)
Theorem C32_action_set : forall xs s, as_of xs = Ok s ->
  NoDup (map slot_of (orig_order s)) /\
  (forall a, In a (al_iter s) <-> winner xs a) /\
  (forall a b, In a (al_iter s) -> In b (al_iter s) -> fst a = "OUTPUT" -> fst b = "GROUP" -> False) /\
  ordered (orig_order s) /\ trace_eq (fun a b => depends a b = Ok false) (orig_order s) (al_iter s) /\
  al_of (orig_order s) = Ok s.
Proof.
  intros xs s H. apply as_of_inv in H. assert (C := set_inv_canonical _ _ H). destruct H as (Hok & Ho & Hn & Hw & Hk).
  assert (P := al_ok_iter_perm _ _ Hok). split; auto. split; [intros a; now rewrite <- P|]. split.
  - intros a b Ha Hb Ea Eb. rewrite <- P in Ha, Hb. apply Hw in Ha, Hb.
    assert (a = b) by (eapply winner_unique; eauto; transitivity SFwd; [apply slot_fwd; auto|symmetry; apply slot_fwd; auto]). subst. congruence.
  - split; auto. split; auto. now apply al_ok_iter.
Qed.
(** Never fails on known actions; every kind that was written is held. *)
Theorem C32_total : forall xs, Forall (fun a => known a = true) xs -> exists s, as_of xs = Ok s /\
  forall a, In a xs -> exists b, In b (al_iter s) /\ slot_of b = slot_of a.
Proof.
  intros xs H. destruct (as_of_total xs H) as (s & E). exists s. split; auto. intros a Ha.
  destruct (winner_exists xs a Ha) as (b & Hb & Sb). exists b. split; auto. now apply (C32_action_set xs s E).
Qed.
Definition ex32 : list action :=
  [OUT 1; SF "ETH_DST" 1; ("POP_VLAN", VNone); SF "IPV4_SRC" 3; ("GROUP", VGroup "all" [[OUT 4]]); SF "ETH_DST" 2; OUT 5].
Example C32_ex : exists s, as_of ex32 = Ok s /\
  al_iter s = [("POP_VLAN", VNone); SF "ETH_DST" 2; SF "IPV4_SRC" 3; ("GROUP", VGroup "all" [[OUT 4]])] /\ forallb known ex32 = true.
Proof. eexists. vm_compute. repeat split. Qed.

Print Assumptions C27_equal_iff_swaps.
Print Assumptions C27_iteration_canonical.
Print Assumptions C27_append_total.
Print Assumptions C27_success_is_canonical.
Print Assumptions C28_table_sound_refuted.
Print Assumptions C28_table_sound_partial.
Print Assumptions C28_equal_lists_same_effect_partial.
Print Assumptions C28_iteration_same_effect_partial.
Print Assumptions C29_remove_refuted.
Print Assumptions C29_remove_canonical_partial.
Print Assumptions C29_copy_partial.
Print Assumptions C30_duplicate_port_refuted.
Print Assumptions C30_select_group_refuted.
Print Assumptions C30_mpls_refuted.
Print Assumptions C30_equal_per_output_partial.
Print Assumptions C30_per_output_meaning_partial.
Print Assumptions C30_value_equality.
Print Assumptions C31_mpls_refuted.
Print Assumptions C31_mpls_ttl_refuted.
Print Assumptions C31_same_effect_partial.
Print Assumptions C31_terminates.
Print Assumptions C32_action_set.
Print Assumptions C32_total.
