(** Theorems for C33-C37: merging rules, and the priorities of merged rules. *)
From Coq Require Import Permutation Sorted Lia.
From Verif Require Import ActionSetProofs ActionProofs InstProofs Merge SingleTable MergeProofs SingleTableProofs PriorityProofs ExecProofs SpecPipeline NormaliseProofs MatchProofs PropNormalise.
Local Open Scope string_scope.
Local Open Scope list_scope.
Local Open Scope Z_scope.

(** ** C33 *)
(** Instructions made by the public operations: filled by appending, or merged. [xs] are all apply
    actions in the order given, [ws] the writes that were not cleared. *)
Inductive built : instructions -> list action -> list action -> Prop :=
| bu_new i xs ws : al_of xs = Ok (apply_actions i) -> as_of ws = Ok (write_actions i) -> built i xs ws
| bu_merge a b m xs ws ys vs : built a xs ws -> built b ys vs -> inst_merge a b = Ok m ->
    built m (xs ++ ys) (if clear_actions b then vs else ws ++ vs).
Lemma built_holds i xs ws : built i xs ws -> holds i xs ws.
Proof. induction 1 as [i xs ws H1 H2|a b m xs ws ys vs Ha IHa Hb IHb H]; [now apply holds_of|]. apply (inst_merge_holds a b m xs ws ys vs IHa IHb H). Qed.

(** What merged instructions hold: the apply actions of the first, then those of the second; the
    action set written by both, unless the second clears it. *)
Theorem C33_merge : forall pick a b m xs ws ys vs, built a xs ws -> built b ys vs -> inst_merge a b = Ok m ->
  (no_pbb_pair (xs ++ ys) -> same_effect pick (xs ++ ys) (al_iter (apply_actions m))) /\
  set_list (if clear_actions b then vs else ws ++ vs) (orig_order (write_actions m)) /\
  goto_table m = goto_table b /\ clear_actions m = clear_actions a || clear_actions b.
Proof.
  intros pick a b m xs ws ys vs Ha Hb H. apply built_holds in Ha, Hb. destruct (inst_merge_holds a b m xs ws ys vs Ha Hb H) as ([(o & Ho & Ht) Hw] & G & C & _).
  split; [|split; [|auto]].
  - intros Hn. apply teq_effect; [|auto]. eapply te_trans; [exact Ht|]. now apply al_ok_iter.
  - now apply set_inv_list.
Qed.
(** Merging is associative up to Instructions.__eq__. *)
Theorem C33_merge_assoc : forall a b c xs ws ys vs zs us ab bc l r, built a xs ws -> built b ys vs -> built c zs us ->
  inst_merge a b = Ok ab -> inst_merge ab c = Ok l -> inst_merge b c = Ok bc -> inst_merge a bc = Ok r -> inst_eqb l r = true.
Proof. intros a b c xs ws ys vs zs us ab bc l r Ha Hb Hc. apply (inst_merge_assoc a b c xs ws ys vs zs us); now apply built_holds. Qed.
(** Merging does not fail when the actions are ones the code knows and can compare. *)
Theorem C33_merge_total : forall (P : action -> Prop) a b xs ws ys vs, (forall x y, P x -> P y -> compat x y) ->
  al_of xs = Ok (apply_actions a) -> as_of ws = Ok (write_actions a) -> al_of ys = Ok (apply_actions b) -> as_of vs = Ok (write_actions b) ->
  pooled P a -> pooled P b -> exists m, inst_merge a b = Ok m.
Proof. intros P a b xs ws ys vs HP H1 H2 H3 H4. apply (inst_merge_total P HP); eapply inst_wf_of; eauto. Qed.

Definition ok_list (xs : list action) : alist := match al_of xs with Ok l => l | Err _ => al_empty end.
Definition ok_set (xs : list action) : alist := match as_of xs with Ok l => l | Err _ => al_empty end.
(** apply, write, goto, clear, metadata *)
Definition mk_full (xs ws : list action) (g : option Z) (c : bool) (md : option (Z * option Z)) : instructions :=
  mkInst g (ok_list xs) (ok_set ws) md c None.
Lemma mk_full_built xs ws g c md : is_ok (al_of xs) = true -> is_ok (as_of ws) = true -> built (mk_full xs ws g c md) xs ws.
Proof.
  intros H1 H2. apply bu_new; unfold mk_full, ok_list, ok_set; cbn [apply_actions write_actions]; [destruct (al_of xs)|destruct (as_of ws)]; auto; discriminate.
Qed.
(** the value of a computation that succeeds *)
Definition with_ok {A} (x : result A) (Q : A -> Prop) : Prop := match x with Ok a => Q a | Err _ => False end.
Definition i33a := mk_full [SETF "ETH_DST" 5; OUTPUT 1] [SETF "VLAN_VID" 7; OUTPUT 2] (Some 1) false None.
Definition i33b := mk_full [SETF "ETH_DST" 6; OUTPUT 3] [OUTPUT 4] (Some 2) false None.
Definition i33c := mk_full [OUTPUT 9] [OUTPUT 8] None true None.
Example C33_ex : built i33a [SETF "ETH_DST" 5; OUTPUT 1] [SETF "VLAN_VID" 7; OUTPUT 2] /\ built i33b [SETF "ETH_DST" 6; OUTPUT 3] [OUTPUT 4] /\ built i33c [OUTPUT 9] [OUTPUT 8] /\
  with_ok (inst_merge i33a i33b) (fun ab => with_ok (inst_merge ab i33c) (fun l => with_ok (inst_merge i33b i33c) (fun bc => with_ok (inst_merge i33a bc) (fun r =>
    orig_order (apply_actions ab) = [SETF "ETH_DST" 5; OUTPUT 1; SETF "ETH_DST" 6; OUTPUT 3] /\
    orig_order (write_actions ab) = [SETF "VLAN_VID" 7; OUTPUT 4] /\ goto_table ab = Some 2 /\
    orig_order (write_actions l) = [OUTPUT 8] /\ clear_actions l = true /\ goto_table r = None)))) /\
  no_pbb_pair ([SETF "ETH_DST" 5; OUTPUT 1] ++ [SETF "ETH_DST" 6; OUTPUT 3]).
Proof.
  split; [apply mk_full_built; vm_compute; reflexivity|]. split; [apply mk_full_built; vm_compute; reflexivity|]. split; [apply mk_full_built; vm_compute; reflexivity|]. split.
  - vm_compute. repeat split.
  - intros a b. cbn [In app]. intros [<-|[<-|[<-|[<-|[]]]]] [<-|[<-|[<-|[<-|[]]]]]; reflexivity.
Qed.

(** ** C34 *)
Definition core_accepts (c : core) (p : packet) : Prop := match_accepts (items_view (m_items (rmatch c))) p.
(** Rules as Python builds them: matches and instructions filled by the public operations, no tag
    pushed or popped by an apply action; with [openflow] no match on an inner tag either. *)
Definition proper (r : registry) (openflow : bool) (c : core) : Prop := good r openflow c.
(** the packet hits [a], and [b] after what [a] does to the header *)
Definition hits_both (a b : core) (p : packet) : Prop := core_accepts a p /\ core_accepts b (inst_header (inst a) p).
Theorem C34_merged_match : forall r a b o r' res, reg_ok r -> proper r o a -> proper r o b -> core_merge a b o r = (r', res) ->
  ((~ exists p, hits_both a b p) <-> res = Err MergeExceptionNoOverlap) /\
  (forall c, res = Ok c -> (forall p, core_accepts c p <-> hits_both a b p) /\ proper r' o c) /\
  (forall e, res = Err e -> e <> MergeExceptionNoOverlap -> inst_merge (inst a) (inst b) = Err e).
Proof.
  intros r a b o r' res Hr Ha Hb H. destruct (core_merge_ok r a b o Hr Ha Hb) as (r1 & _ & _ & [[H1 E]|[H1 [(e & Ee & E)|(c & E & Mc & Gc)]]]); rewrite E in H; injection H as -> <-.
  - split; [split; auto|]. split; [discriminate|]. intros e [= <-] Q. now destruct Q.
  - split; [split; [intros Q; now destruct Q|]|].
    + intros [= ->]. apply inst_merge_exn in Ee. discriminate Ee.
    + split; [discriminate|]. intros e' [= <-] _. exact Ee.
  - split; [split; [intros Q; now destruct Q|discriminate]|]. split; [|discriminate]. intros c' [= <-]. split; [apply (mc_match _ _ _ Mc)|exact Gc].
Qed.
(** The merge succeeds exactly when some packet hits both. *)
Theorem C34_merge_succeeds : forall (P : action -> Prop) r a b o, (forall x y, P x -> P y -> compat x y) ->
  reg_ok r -> proper r o a -> proper r o b -> pooled P (inst a) -> pooled P (inst b) ->
  ((exists r' c, core_merge a b o r = (r', Ok c)) <-> exists p, hits_both a b p).
Proof.
  intros P r a b o HP Hr Ha Hb Pa Pb. destruct (core_merge a b o r) as [r' res] eqn:E. destruct (C34_merged_match r a b o r' res Hr Ha Hb E) as (H1 & H2 & H3). split.
  - intros (r1 & c & Q). injection Q as -> ->. destruct (core_merge_ok r a b o Hr Ha Hb) as (r2 & _ & _ & [[_ E2]|[H _]]); [rewrite E2 in E; discriminate E|exact H].
  - intros Hp. exists r'. destruct res as [c|e]; [eauto|]. exfalso. destruct (inst_merge_total P HP (inst a) (inst b)) as (i & Ei); [apply Ha|apply Hb|auto|auto|].
    assert (Dec : e = MergeExceptionNoOverlap \/ e <> MergeExceptionNoOverlap) by (destruct e; (now left) || (right; discriminate)).
    destruct Dec as [->|Ne]; [now apply (proj2 H1 eq_refl)|]. specialize (H3 e eq_refl Ne). congruence.
Qed.
Definition mk_core2 (prio tbl : Z) (items : list (string * (Z * option Z))) (i : instructions) : core := mkCore prio None (mk_match items) i tbl.
Lemma mk_proper o prio tbl items xs ws g c md :
  forallb (fun it => match dict_get registry_init (fst it) with Some _ => true | None => false end) items = true ->
  is_ok (al_of xs) = true -> is_ok (as_of ws) = true ->
  forallb (fun a => negb (existsb (String.eqb (fst a)) tag_names) && (negb (String.eqb (fst a) "SET_FIELD") || match snd a with VSet f _ => negb (String.eqb f "METADATA") | _ => false end)) (orig_order (ok_list xs)) = true ->
  existsb ends_in_digit (mkeys (mk_match items)) = false ->
  proper registry_init o (mk_core2 prio tbl items (mk_full xs ws g c md)).
Proof.
  intros H1 H2 H3 H4 H5. split; [now apply mk_match_ok|]. split; [|split; [|intros _; exact H5]].
  - eapply inst_wf_of with (xs := xs) (ws := ws); unfold mk_full, ok_list, ok_set; cbn [apply_actions write_actions]; [destruct (al_of xs)|destruct (as_of ws)]; auto; discriminate.
  - cbn [inst mk_core2 mk_full]. unfold plain_inst, plain_acts. cbn [apply_actions mk_full]. rewrite Forall_forall. rewrite forallb_forall in H4. intros a Ha. specialize (H4 a Ha).
    apply andb_true_iff in H4 as [A B]. split.
    + intros Q. rewrite negb_true_iff in A. assert (existsb (String.eqb (fst a)) tag_names = true) by (apply existsb_exists; exists (fst a); split; [auto|apply String.eqb_refl]). congruence.
    + intros Q. rewrite Q in B. cbn [String.eqb Ascii.eqb Bool.eqb negb orb] in B. destruct (snd a) as [|z|f v|t bs]; try discriminate B. exists f, v. split; [auto|]. rewrite negb_true_iff in B. now apply String.eqb_neq.
Qed.
(** the first rule sets VLAN_VID to 7 (with the present bit), the second matches it *)
Definition c34a := mk_core2 5 0 [("MPLS_BOS", (1, None))] (mk_full [SETF "VLAN_VID" 7] [] (Some 1) false (Some (3, Some 3))).
Definition c34b := mk_core2 6 1 [("VLAN_VID", (4103, None)); ("METADATA", (19, Some 19))] (mk_full [OUTPUT 1] [] None false (Some (8, Some 8))).
Definition c34x := mk_core2 6 1 [("VLAN_VID", (4104, None))] (mk_full [OUTPUT 2] [] None false None).
Example C34_ex : proper registry_init true c34a /\ proper registry_init true c34b /\ proper registry_init true c34x /\
  with_ok (snd (core_merge c34a c34b true registry_init)) (fun c =>
     items_view (m_items (rmatch c)) = [("MPLS_BOS", (1, None)); ("METADATA", (16, Some 16))] /\ write_metadata (inst c) = Some (11, Some 11) /\ priority c = 11) /\
  snd (core_merge c34a c34x true registry_init) = Err MergeExceptionNoOverlap.
Proof.
  split; [apply mk_proper; vm_compute; reflexivity|]. split; [apply mk_proper; vm_compute; reflexivity|]. split; [apply mk_proper; vm_compute; reflexivity|]. split.
  - vm_compute. repeat split.
  - vm_compute. reflexivity.
Qed.

(** ** C35 *)
(** The merged write-metadata instruction does what the two do one after the other. *)
Theorem C35_metadata_composes : forall m1 m2 p k, metadata_header (merge_metadata m1 m2) p k = metadata_header m2 (metadata_header m1 p) k.
Proof.
  intros m1 m2 p k. assert (E : forall m q, metadata_header m q k = apply_rw (rmeta m) q k) by (intros [[v mk]|] q; [apply write_field_rw|reflexivity]).
  rewrite !E. unfold apply_rw. rewrite rmeta_merge. destruct (rmeta m2 k); cbn [ov]; [reflexivity|]. rewrite E. reflexivity.
Qed.
(** What a merged rule carries, whatever the rules: this metadata, the first rule's table and
    cookie, the sum of the priorities. *)
Lemma core_merge_fields a b o r r' c : core_merge a b o r = (r', Ok c) -> exists i, inst_merge (inst a) (inst b) = Ok i /\
  inst c = with_metadata i (merge_metadata (write_metadata (inst a)) (write_metadata (inst b))) /\
  priority c = priority a + priority b /\ table c = table a /\ cookie c = cookie a.
Proof.
  intros H. unfold core_merge in H. apply sbind_ok in H as (r1 & e & _ & H). apply sbind_ok in H as (r2 & wa & _ & H). apply sbind_ok in H as (r3 & wb & _ & H).
  destruct (wildcard_intersect wa wb =? 0); [discriminate H|]. apply sbind_ok in H as (r4 & m2 & _ & H). apply sbind_ok in H as (r5 & m3 & _ & H).
  apply sbind_ok in H as (r6 & m & _ & H). apply sbind_ok in H as (r7 & i & Ei & H). unfold slift in Ei. injection Ei as _ Ei. exists i. split; [exact Ei|].
  cbv zeta in H. destruct (o && existsb ends_in_digit (mkeys m)); [discriminate H|]. injection H as _ <-. cbn [inst priority table cookie]. auto.
Qed.
Theorem C35_merged_rule_metadata : forall a b o r r' c p k, core_merge a b o r = (r', Ok c) ->
  metadata_header (write_metadata (inst c)) p k = metadata_header (write_metadata (inst b)) (metadata_header (write_metadata (inst a)) p) k.
Proof. intros a b o r r' c p k H. destruct (core_merge_fields _ _ _ _ _ _ H) as (i & _ & -> & _). apply C35_metadata_composes. Qed.
Example C35_ex : merge_metadata (Some (0xF0, Some 0xFF)) (Some (0x0A, Some 0x0F)) = Some (0xFA, Some 0xFF) /\
  merge_metadata (Some (0xF0, None)) (Some (0x0A, Some 0x0F)) = Some (0xFA, None) /\
  merge_metadata (Some (1, Some 1)) (Some (4, None)) = Some (4, None) /\ merge_metadata (Some (1, Some 1)) None = Some (1, Some 1).
Proof. vm_compute. repeat split. Qed.

(** ** C36 *)
(** On every packet: the same header (hence the same rules hit afterwards), the same applied
    actions, the same action set whatever was written before, the same next table. *)
Theorem C36_merged_rule_runs_both_partial : forall pick r a b o r' c, reg_ok r -> proper r o a -> proper r o b -> core_merge a b o r = (r', Ok c) ->
  (forall p k, inst_header (inst c) p k = inst_header (inst b) (inst_header (inst a) p) k) /\
  (forall done, no_pbb_pair (applied_after (inst b) (applied_after (inst a) done)) ->
     same_effect pick (applied_after (inst b) (applied_after (inst a) done)) (applied_after (inst c) done)) /\
  (forall ws s, set_list (writes_after (inst b) (writes_after (inst a) ws)) s <-> set_list (writes_after (inst c) ws) s) /\
  goto_table (inst c) = goto_table (inst b).
Proof.
  intros pick r a b o r' c Hr Ha Hb H. destruct (core_merge_ok r a b o Hr Ha Hb) as (r1 & _ & _ & [[_ E]|[_ [(e & _ & E)|(c' & E & Mc & Gc)]]]); rewrite E in H; try discriminate H.
  injection H as -> ->. assert (Q := mc_inst _ _ _ Mc). split; [|split; [|split]].
  - intros p k. apply seq_header; [exact Q|apply Ha|apply Hb].
  - intros done Hn. unfold applied_after in *. apply teq_effect; [|exact Hn]. rewrite <- app_assoc. apply ateq_app; [apply te_refl|]. apply (sq_apply _ _ _ Q).
  - intros ws s. assert (W : weq (writes_after (inst b) (writes_after (inst a) ws)) (writes_after (inst c) ws)).
    { unfold writes_after. rewrite (sq_clear _ _ _ Q). eapply weq_trans; [|apply weq_app; [apply weq_refl|apply (sq_write _ _ _ Q)]].
      destruct (clear_actions (inst a)), (clear_actions (inst b)); cbn [orb]; rewrite ?app_nil_l, ?app_assoc; apply weq_refl. }
    split; apply set_list_weq; [exact W|now apply weq_sym].
  - apply (sq_goto _ _ _ Q).
Qed.
(** A meter is lost: neither rule's meter is in the merged rule. *)
Definition with_meter (c : core) (m : Z) : core :=
  mkCore (priority c) (cookie c) (rmatch c) (mkInst (goto_table (inst c)) (apply_actions (inst c)) (write_actions (inst c)) (write_metadata (inst c)) (clear_actions (inst c)) (Some m)) (table c).
Theorem C36_meter_refuted : exists a b c r', proper registry_init true a /\ proper registry_init true b /\
  meter (inst a) = Some 5 /\ core_merge a b true registry_init = (r', Ok c) /\ meter (inst c) = None.
Proof.
  exists (with_meter c34a 5), c34b, (match snd (core_merge c34a c34b true registry_init) with Ok c => c | Err _ => c34a end), (fst (core_merge c34a c34b true registry_init)).
  split; [change (proper registry_init true c34a); apply mk_proper; vm_compute; reflexivity|]. split; [apply mk_proper; vm_compute; reflexivity|].
  split; [reflexivity|]. split; vm_compute; reflexivity.
Qed.
Example C36_ex : proper registry_init true c34a /\ proper registry_init true c34b /\ is_ok (snd (core_merge c34a c34b true registry_init)) = true /\
  no_pbb_pair (applied_after (inst c34b) (applied_after (inst c34a) [])).
Proof.
  split; [apply mk_proper; vm_compute; reflexivity|]. split; [apply mk_proper; vm_compute; reflexivity|]. split; [vm_compute; reflexivity|].
  vm_compute. intros a b [<-|[<-|[]]] [<-|[<-|[]]]; reflexivity.
Qed.

(** ** C37 *)
(** The sums of scaled priorities along two paths compare like the priorities table by table
    ([ts]: the tables in order). *)
Theorem C37_lexicographic : forall rs rs' ts p q p' q', scale_ruleset rs = Ok rs' -> (forall r, In r rs -> 0 <= priority (rcore r)) ->
  StronglySorted Z.lt ts -> (forall t, In t ts <-> exists r, In r rs /\ table (rcore r) = t) ->
  increasing p -> increasing q -> scaled_path rs rs' p p' -> scaled_path rs rs' q q' ->
  (total_prio p' < total_prio q' <-> lex_lt (map (prio_in p) ts) (map (prio_in q) ts)) /\
  (total_prio p' = total_prio q' <-> map (prio_in p) ts = map (prio_in q) ts).
Proof.
  intros rs rs' ts p q p' q' Hs H0 St Ht Ip Iq Sp Sq. destruct (scaled_total rs rs' ts p p' Hs H0 St Ht Ip Sp) as [-> D1]. destruct (scaled_total rs rs' ts q q' Hs H0 St Ht Iq Sq) as [-> D2].
  apply value_lex; auto. now rewrite !map_length.
Qed.
(** Scaling succeeds exactly when all priorities fit in 16 bits. *)
Theorem C37_scaling_total : forall rs, (exists rs', scale_ruleset rs = Ok rs') <-> forall r, In r rs -> priority (rcore r) < 2 ^ 16.
Proof.
  intros rs. split.
  - intros (rs' & H) r Hr. destruct (scale_ok _ _ H) as (f & _ & _ & Hm & _). now apply Hm.
  - intros H. unfold scale_ruleset. assert (Hin : forall r, In r rs -> In (table (rcore r)) (tables_of rs)) by (intros r Hr; apply tables_of_in; eauto).
    revert H Hin. generalize (tables_of rs). intros ts. induction rs as [|r rs IH]; intros Hmax Hin; cbn [map rall]; [eauto|].
    unfold scale_rule at 1. change MAX_PRIORITY with (2 ^ 16). destruct (Z.leb_spec (2 ^ 16) (priority (rcore r))) as [Q|_]; [specialize (Hmax r (or_introl eq_refl)); lia|].
    assert (Ek : exists k, power_of ts (table (rcore r)) = Ok k).
    { specialize (Hin r (or_introl eq_refl)). revert Hin. generalize (table (rcore r)). clear. intros t. induction ts as [|u ts IH]; cbn [power_of In]; [contradiction|].
      destruct (Z.eqb_spec u t); [eauto|]. intros [Q|Q]; [contradiction|auto]. }
    destruct Ek as (k & ->). cbn [rbind]. destruct IH as (xs & ->); [intros; apply Hmax; now right|intros; apply Hin; now right|]. cbn [rbind]. eauto.
Qed.
(** Merging adds the priorities. *)
Theorem C37_merge_adds : forall a b o r r' c, core_merge a b o r = (r', Ok c) -> priority c = priority a + priority b.
Proof. intros a b o r r' c H. now destruct (core_merge_fields _ _ _ _ _ _ H) as (i & _ & _ & Hp & _). Qed.
Definition r37 (prio tbl : Z) : rule := mkRule (mk_core2 prio tbl [] inst_empty) [].
Example C37_ex :
  let rs := [r37 9 0; r37 8 0; r37 65535 3; r37 1 3; r37 7 5] in
  let p := [r37 8 0; r37 65535 3; r37 7 5] in let q := [r37 9 0; r37 7 5] in
  with_ok (scale_ruleset rs) (fun rs' =>
    let p' := [nth 1 rs' (r37 0 0); nth 2 rs' (r37 0 0); nth 4 rs' (r37 0 0)] in let q' := [nth 0 rs' (r37 0 0); nth 4 rs' (r37 0 0)] in
    scaled_path rs rs' p p' /\ scaled_path rs rs' q q' /\ total_prio p' = 8 * 2 ^ 32 + 65535 * 2 ^ 16 + 7 /\ total_prio p' < total_prio q' /\
    map (prio_in p) [0; 3; 5] = [8; 65535; 7] /\ map (prio_in q) [0; 3; 5] = [9; 0; 7]) /\ increasing p /\ increasing q.
Proof.
  cbv zeta. split; [|split].
  - cbn [with_ok]. vm_compute (scale_ruleset _). cbn [with_ok nth]. split; [|split; [|vm_compute; repeat split]].
    + constructor; [cbn [combine In]; tauto|]. constructor; [cbn [combine In]; tauto|]. constructor; [cbn [combine In]; tauto|constructor].
    + constructor; [cbn [combine In]; tauto|]. constructor; [cbn [combine In]; tauto|constructor].
  - repeat constructor.
  - repeat constructor.
Qed.

Print Assumptions C33_merge.
Print Assumptions C33_merge_assoc.
Print Assumptions C33_merge_total.
Print Assumptions C34_merged_match.
Print Assumptions C34_merge_succeeds.
Print Assumptions C35_metadata_composes.
Print Assumptions C35_merged_rule_metadata.
Print Assumptions C36_merged_rule_runs_both_partial.
Print Assumptions C36_meter_refuted.
Print Assumptions C37_lexicographic.
Print Assumptions C37_scaling_total.
Print Assumptions C37_merge_adds.
