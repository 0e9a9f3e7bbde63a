(** Theorems for C79: merging a rule that pushes and pops tags with a rule of the next table. *)
From Coq Require Import Lia ZifyBool ZifyNat ZifyN.
From Verif Require Import ActionProofs InstProofs Foata MatchWcProofs Match Merge SpecTall WildcardProofs MatchProofs MergeProofs SingleTableProofs TagProofs TallProofs PropNormalise PropMerge PropSingle PropTags.
Local Open Scope string_scope.
Local Open Scope list_scope.
Local Open Scope Z_scope.
Local Opaque NB WC_FULLWC layout oxm_fields registry_init.

(** ** C79 *)
(** What the rule's apply-actions, in the order given, and its write-metadata do to a packet. *)
Definition after_rule (c : core) (T : tall) : tall := tall_inst (orig_order (apply_actions (inst c))) (write_metadata (inst c)) T.
Definition core_hits (c : core) (T : tall) : Prop := match_accepts (items_view (m_items (rmatch c))) (tview T).
Definition hits_both_tall (a b : core) (T : tall) : Prop := core_hits a T /\ core_hits b (after_rule a T).
(** Rules that match on fields that exist, of tags the outermost ones only, and whose
    instructions were filled by the public operations. *)
Definition outer_rule (r : registry) (c : core) : Prop :=
  match_ok r (rmatch c) /\ inst_wf (inst c) /\ real_fields (rmatch c) /\ forall k, In k (mkeys (rmatch c)) -> ~ inner_field k.
Definition sets_no_metadata (c : core) : Prop := forall v, ~ In ("SET_FIELD", VSet "METADATA" v) (orig_order (apply_actions (inst c))).
(** the tag operations of the rule can be followed *)
Definition tame_rule (c : core) : Prop :=
  tame (fixed_by (items_view (m_items (rmatch c)))) (fun _ => 0) (al_iter (apply_actions (inst c))) /\ sets_no_metadata c.
(** [b] matches on the tag field [f], and what is outermost after [a] was [d] levels deep before *)
Definition uncovers (a b : core) (f : string) (d : nat) : Prop :=
  tag_field f /\ In f (mkeys (rmatch b)) /\ forall T j, tags (after_rule a T) f 0%nat j = tags T f d j.

Lemma no_meta_list c l : sets_no_metadata c -> (forall a, In a l -> In a (orig_order (apply_actions (inst c)))) -> Forall no_meta l.
Proof. intros H Hl. apply Forall_forall. intros a Ha v ->. exact (H v (Hl _ Ha)). Qed.
Lemma iter_in c a : inst_wf (inst c) -> In a (al_iter (apply_actions (inst c))) -> In a (orig_order (apply_actions (inst c))).
Proof. intros [H _] Ha. apply al_ok_iter in H. now rewrite (ateq_perm _ _ H). Qed.
Lemma rule_order c T : inst_wf (inst c) -> same_tall (after_rule c T) (tall_inst (al_iter (apply_actions (inst c))) (write_metadata (inst c)) T).
Proof. intros [H _]. apply inst_perm. now apply al_ok_iter. Qed.
Lemma accepts_same r m S T : match_ok r m -> same_tall S T -> maccepts m (tview S) -> maccepts m (tview T).
Proof. intros Hm H HS. apply (accepts_cbit _ _ (proj1 Hm)). intros i x Hx. rewrite <- (same_view _ _ H). revert i x Hx. now apply (accepts_cbit _ _ (proj1 Hm)). Qed.
Lemma tboth_hits r a b T : inst_wf (inst a) -> match_ok r (rmatch b) -> tboth a b T <-> hits_both_tall a b T.
Proof.
  intros Ha Hb. assert (H := rule_order a T Ha). unfold tboth, hits_both_tall, core_hits. split; intros [H1 H2]; (split; [exact H1|]); (eapply accepts_same; [exact Hb| |exact H2]); [now apply same_tall_sym|exact H].
Qed.
Lemma tdeep_uncovers a b : inst_wf (inst a) -> tdeep a b -> exists f d, uncovers a b f d /\ (3 <= d)%nat.
Proof.
  intros Ha (f & d & Hf & Hh & Hd & HT). exists f, d. split; [|exact Hd]. split; [exact Hf|]. split; [now apply mhas_keys|]. intros T j. rewrite (proj2 (rule_order a T Ha)). apply HT.
Qed.

(** The merged rule is hit by exactly the packets that hit the first rule and then, with the tags
    as they are after its actions, the second, and does to them what the two do. There is no
    merged rule for want of overlap exactly when there is no such packet. It is not made either if
    the second rule matches on a tag that was more than two levels deep, if the
    instructions cannot be merged, or (for OpenFlow) if it would have to match on an inner tag. *)
Theorem C79_tag_merge_partial : forall r a b o r' res, reg_ok r -> outer_rule r a -> outer_rule r b -> tame_rule a -> core_merge a b o r = (r', res) ->
  (res = Err MergeExceptionNoOverlap <-> ~ exists T, hits_both_tall a b T) /\
  (forall c, res = Ok c -> match_ok r' (rmatch c) /\ (forall T, core_hits c T <-> hits_both_tall a b T) /\
     (sets_no_metadata b -> forall T i, tview (after_rule c T) i = tview (after_rule b (after_rule a T)) i) /\ goto_table (inst c) = goto_table (inst b)) /\
  (forall e, res = Err e -> e <> MergeExceptionNoOverlap ->
     (e = UnboundLocalError /\ exists f d, uncovers a b f d /\ (3 <= d)%nat) \/ inst_merge (inst a) (inst b) = Err e \/
     (o = true /\ e = MergeException /\ exists m, (forall T, match_accepts (items_view (m_items m)) (tview T) <-> hits_both_tall a b T) /\ existsb ends_in_digit (mkeys m) = true)).
Proof.
  intros r a b o r' res Hr (Ma & Wa & Ka & Na) (Mb & Wb & Kb & Nb) (Ta & Sa) H. assert (Q := fun T => tboth_hits r a b T Wa Mb).
  assert (Hm : Forall no_meta (al_iter (apply_actions (inst a)))) by (apply (no_meta_list a); [exact Sa|]; intros x Hx; now apply iter_in).
  destruct (core_merge_tall r a b o Hr Ma Mb (conj Ka Na) (conj Kb Nb) Ta Hm) as (r1 & R1 & L1 & [[N E]|[(D & (T0 & HT) & E)|(m & T0 & HT & Mm & Am & E)]]); rewrite E in H; injection H as <- <-.
  - split; [split; [intros _ (T & HT); apply N; exists T; now apply Q|reflexivity]|]. split; [discriminate|]. intros e [= <-] X. now destruct X.
  - split; [split; [discriminate|intros X; exfalso; apply X; exists T0; now apply Q]|]. split; [discriminate|]. intros e [= <-] _. left. split; [reflexivity|]. now apply tdeep_uncovers.
  - unfold finish_merge. destruct (inst_merge (inst a) (inst b)) as [i|e] eqn:Ei; cbn [rbind].
    + destruct (o && existsb ends_in_digit (mkeys m)) eqn:Eo.
      * split; [split; [discriminate|intros X; exfalso; apply X; exists T0; now apply Q]|]. split; [discriminate|]. intros e [= <-] _. right. right. apply andb_true_iff in Eo as [-> Eo]. split; [reflexivity|]. split; [reflexivity|].
        exists m. split; [|exact Eo]. intros T. rewrite <- Q. apply Am.
      * split; [split; [discriminate|intros X; exfalso; apply X; exists T0; now apply Q]|]. split; [|discriminate]. intros c [= <-]. cbn [rmatch inst]. split; [exact Mm|]. split; [intros T; rewrite <- Q; apply Am|].
        destruct (merge_inst (inst a) (inst b) i Wa Wb Ei) as (_ & Sq & _). split; [|apply (sq_goto _ _ _ Sq)]. intros Sb T k. apply same_view. apply inst_seq; [apply (sq_apply _ _ _ Sq)|]. apply (no_meta_list b); auto.
    + split; [split; [intros [= ->]; apply inst_merge_exn in Ei; discriminate Ei|intros X; exfalso; apply X; exists T0; now apply Q]|]. split; [discriminate|]. intros e' [= <-] _. right. now left.
Qed.

(** the first rule matches on the VLAN tag, which it replaces by one with id 2 on top of it, or
    pops; the second matches on the id *)
Definition c79_push := mk_core2 5 0 [("VLAN_VID", (4097, None)); ("VLAN_PCP", (3, None))] (mk_full [PUSH_VLAN; SETF "VLAN_VID" 2] [] (Some 1) false (Some (3, None))).
Definition c79_pop := mk_core2 5 0 [("VLAN_VID", (4097, None))] (mk_full [("POP_VLAN", VNone)] [] (Some 1) false None).
Definition c79_pop3 := mk_core2 5 0 [("VLAN_VID", (4097, None))] (mk_full [("POP_VLAN", VNone); ("POP_VLAN", VNone); ("POP_VLAN", VNone)] [] (Some 1) false None).
Definition c79_two := mk_core2 6 1 [("VLAN_VID", (4098, None)); ("VLAN_PCP", (1, Some 1))] (mk_full [OUTPUT 1] [] None false None).
Definition c79_four := mk_core2 6 1 [("VLAN_VID", (4100, None))] (mk_full [OUTPUT 1] [] None false None).
Lemma vlan_fields : tag_field "VLAN_VID" /\ tag_field "VLAN_PCP".
Proof. split; exists (Tun "PUSH_VLAN" "POP_VLAN" ["VLAN_VID"; "VLAN_PCP"]); (split; [vm_compute; auto|cbn; auto]). Qed.
Lemma c79_outer prio tbl items xs ws g c md : forallb (fun it => match dict_get registry_init (fst it) with Some _ => true | None => false end) items = true ->
  is_ok (al_of xs) = true -> is_ok (as_of ws) = true -> (forall k, In k (mkeys (mk_match items)) -> k = "VLAN_VID" \/ k = "VLAN_PCP") ->
  outer_rule registry_init (mk_core2 prio tbl items (mk_full xs ws g c md)).
Proof.
  intros H1 H2 H3 K. split; [now apply mk_match_ok|]. split.
  - eapply inst_wf_of with (xs := xs) (ws := ws); unfold mk_full, ok_list, ok_set; cbn [apply_actions write_actions mk_core2 inst]; [destruct (al_of xs)|destruct (as_of ws)]; auto; discriminate.
  - split; intros k Hk.
    + destruct (K k Hk) as [-> | ->]; [destruct (tag_levels _ (proj1 vlan_fields)) as (b & (_ & s & A & B & _) & _)|destruct (tag_levels _ (proj2 vlan_fields)) as (b & (_ & s & A & B & _) & _)]; eauto.
    + apply not_inner. destruct (K k Hk) as [-> | ->]; reflexivity.
Qed.
Example C79_ex : reg_ok registry_init /\ Forall (outer_rule registry_init) [c79_push; c79_pop; c79_pop3; c79_two; c79_four] /\ Forall tame_rule [c79_push; c79_pop; c79_pop3] /\
  with_ok (snd (core_merge c79_push c79_two true registry_init)) (fun c => items_view (m_items (rmatch c)) = [("VLAN_PCP", (3, None)); ("VLAN_VID", (4097, None))] /\
    orig_order (apply_actions (inst c)) = [PUSH_VLAN; SETF "VLAN_VID" 2; OUTPUT 1] /\ write_metadata (inst c) = Some (3, None)) /\
  with_ok (snd (core_merge c79_pop c79_two false registry_init)) (fun c => items_view (m_items (rmatch c)) = [("VLAN_PCP1", (1, Some 1)); ("VLAN_VID1", (4098, None)); ("VLAN_VID", (4097, None))]) /\
  snd (core_merge c79_pop c79_two true registry_init) = Err MergeException /\
  snd (core_merge c79_push c79_four true registry_init) = Err MergeExceptionNoOverlap /\
  snd (core_merge c79_pop3 c79_two false registry_init) = Err UnboundLocalError.
Proof.
  split; [exact reg_init_ok|]. split.
  { repeat (apply Forall_cons; [apply c79_outer; try (vm_compute; reflexivity); intros k; vm_compute; intuition|]). apply Forall_nil. }
  split.
  { assert (L : exists s, In s layout /\ sl_name s = "VLAN_VID") by (destruct (tag_levels _ (proj1 vlan_fields)) as (b & (_ & s & A & B & _) & _); eauto).
    apply Forall_cons; [split|apply Forall_cons; [split|apply Forall_cons; [split|apply Forall_nil]]].
    - assert (E : al_iter (apply_actions (inst c79_push)) = [PUSH_VLAN; SETF "VLAN_VID" 2]) by (vm_compute; reflexivity). rewrite E. cbn.
      split; [lia|]. split; [intros f [<-|[<-|[]]]; [exists 4097|exists 3]; vm_compute; auto|]. exists "VLAN_VID", 2. split; [reflexivity|]. split; [exact L|]. split; [apply not_inner; reflexivity|exact Logic.I].
    - intros v. vm_compute. intuition discriminate.
    - assert (E : al_iter (apply_actions (inst c79_pop)) = [("POP_VLAN", VNone)]) by (vm_compute; reflexivity). rewrite E. cbn. split; [lia|exact Logic.I].
    - intros v. vm_compute. intuition discriminate.
    - assert (E : al_iter (apply_actions (inst c79_pop3)) = [("POP_VLAN", VNone); ("POP_VLAN", VNone); ("POP_VLAN", VNone)]) by (vm_compute; reflexivity). rewrite E. cbn. repeat split; lia.
    - intros v. vm_compute. intuition discriminate. }
  split; [vm_compute; repeat split|]. split; [vm_compute; reflexivity|]. split; [vm_compute; reflexivity|]. split; vm_compute; reflexivity.
Qed.
(** A rule that pushes a tag without matching on the one it copies: the copy is taken to be 0, and
    the next rule that matches on it is left out though packets reach it. *)
Definition c79_blind := mk_core2 5 0 [] (mk_full [PUSH_VLAN] [] (Some 1) false None).
Definition c79_seven := mk_core2 6 1 [("VLAN_PCP", (7, None))] (mk_full [OUTPUT 1] [] None false None).
Definition all_ones : tall := Tall (fun _ => true) (fun _ _ _ => true).
Theorem C79_blind_push_refuted : exists r a b T r', reg_ok r /\ outer_rule r a /\ outer_rule r b /\ sets_no_metadata a /\
  hits_both_tall a b T /\ core_merge a b true r = (r', Err MergeExceptionNoOverlap).
Proof.
  exists registry_init, c79_blind, c79_seven, all_ones, (fst (core_merge c79_blind c79_seven true registry_init)). split; [exact reg_init_ok|].
  split; [apply c79_outer; try (vm_compute; reflexivity); intros k; vm_compute; intuition|]. split; [apply c79_outer; try (vm_compute; reflexivity); intros k; vm_compute; intuition|].
  split; [intros v; vm_compute; intuition discriminate|]. split.
  - split; [intros it []|]. unfold core_hits. assert (E : items_view (m_items (rmatch c79_seven)) = [("VLAN_PCP", (7, None))]) by (vm_compute; reflexivity). rewrite E.
    intros it [<-|[]] s Hs En j Hj _; cbn [fst snd] in *. assert (s = Slot "VLAN_PCP" 1328 3) as -> by (apply slot_name_inj; [auto|vm_compute; tauto|exact En]). cbn [sl_bits sl_off] in *.
    assert (Q : j = 0 \/ j = 1 \/ j = 2) by lia. repeat destruct Q as [->|Q]; try subst j; reflexivity.
  - assert (E : snd (core_merge c79_blind c79_seven true registry_init) = Err MergeExceptionNoOverlap) by (vm_compute; reflexivity).
    rewrite <- E. apply surjective_pairing.
Qed.
Print Assumptions C79_tag_merge_partial.
Print Assumptions C79_blind_push_refuted.
