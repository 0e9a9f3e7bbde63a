(** Theorems for C41 and C42: demotion, promotion and the simulated egress of push and pop. *)
From Coq Require Import ZifyBool ZifyNat ZifyN.
From Verif Require Import MatchWcProofs Match Merge SpecTags WildcardProofs MatchProofs MergeProofs TagProofs PropNormalise PropMerge PropSingle.
Local Open Scope string_scope.
Local Open Scope list_scope.
Local Open Scope Z_scope.
Local Opaque NB WC_FULLWC layout oxm_fields registry_init.

(** The match only names fields that exist. *)
Definition real_fields (m : Match) : Prop := forall k, In k (mkeys m) -> exists s, In s layout /\ sl_name s = k.

Lemma last_char_app b c : last_char (b ++ String c EmptyString) = Some c.
Proof. induction b as [|x b IH]; [reflexivity|]. cbn. rewrite IH. destruct b; reflexivity. Qed.
Lemma not_inner k : ends_in_digit k = false -> ~ inner_field k.
Proof. intros H (s & base & d & _ & _ & [<-|[<-|[]]] & ->); unfold ends_in_digit in H; rewrite last_char_app in H; discriminate H. Qed.

(** ** C41 *)
(** Demoting by [n] and promoting by [n]: the same fields, the same packets; unless the match has
    the field itself and the next level and [n] is 1 (see the refutation). *)
Theorem C41_demote_promote_partial : forall r m f n r1 m1, reg_ok r -> match_ok r m -> real_fields m -> tag_field f -> 0 <= n ->
  demote_match m f n r = (r1, Ok m1) -> ~ (n = 1 /\ In f (mkeys m) /\ In (f ++ "1")%string (mkeys m)) ->
  exists r2 m2, promote_match m1 f n r1 = (r2, Ok m2) /\ (forall x, In x (mkeys m2) <-> In x (mkeys m)) /\
  forall p, match_accepts (items_view (m_items m2)) p <-> match_accepts (items_view (m_items m)) p.
Proof.
  intros r m f n r1 m1 Hr Hm Hk Hf Hn H Hx. destruct (demote_promote r m f n r1 m1 Hr Hm Hk Hf Hn H) as (r2 & m2 & E & K & A).
  { intros (A & B & C). apply Hx. split; [auto|]. split; now apply mhas_keys. }
  exists r2, m2. split; [exact E|]. split; [intros x; rewrite <- !mhas_keys, K; reflexivity|exact A].
Qed.
(** Promoting a match on the header that is popped is reported, never dropped. *)
Theorem C41_promote_reports : forall r m f n, 1 <= n ->
  In f (variations m f) \/ (In (f ++ "1")%string (variations m f) /\ 2 <= n) \/ (In (f ++ "2")%string (variations m f) /\ 3 <= n) ->
  exists r' e, promote_match m f n r = (r', Err e).
Proof.
  intros r m f n Hn [H|[[H H2]|[H H2]]]; (eapply promote_fails; [exact Hn|exact H|]); auto.
Qed.
(** Exceeding the supported depth is reported; as an OverflowError if the match has a field
    that is already inside a tag. *)
Theorem C41_depth_reported_partial : forall r m f n, match_ok r m -> real_fields m -> tag_field f -> 1 <= n ->
  (In (f ++ "2")%string (mkeys m) \/ (In (f ++ "1")%string (mkeys m) /\ 2 <= n) \/ (In f (mkeys m) /\ 3 <= n)) ->
  (exists e, demote_match m f n r = (r, Err e)) /\
  (In (f ++ "1")%string (mkeys m) \/ In (f ++ "2")%string (mkeys m) -> demote_match m f n r = (r, Err OverflowError)).
Proof.
  intros r m f n Hm Hk Hf Hn H. assert (E := demote_err r m f n Hm (tidy_known m f Hk Hf) Hn). rewrite <- !mhas_keys in *. rewrite (E H). split; [eauto|].
  intros [Q|Q]; rewrite Q; [rewrite orb_true_r|]; reflexivity.
Qed.
(** The message of the second check reads a variable that need not be bound. *)
Definition m41 : Match := mk_match [("VLAN_VID", (4097, None))].
Theorem C41_depth_error_refuted : exists r m f n, reg_ok r /\ match_ok r m /\ real_fields m /\ tag_field f /\ In f (mkeys m) /\ 2 < n /\
  demote_match m f n r = (r, Err UnboundLocalError).
Proof.
  exists registry_init, m41, "VLAN_VID", 3. split; [exact reg_init_ok|]. split; [apply mk_match_ok; vm_compute; reflexivity|].
  assert (T : tag_field "VLAN_VID") by (exists (Tun "PUSH_VLAN" "POP_VLAN" ["VLAN_VID"; "VLAN_PCP"]); split; [vm_compute; auto|now left]).
  split; [|split; [exact T|split; [vm_compute; auto|split; [lia|vm_compute; reflexivity]]]].
  intros k Hk. assert (E : k = "VLAN_VID") by (revert Hk; vm_compute; intuition). subst k. destruct (tag_levels _ T) as (b & (_ & s & A & B & _) & _). eauto.
Qed.
(** Promotion visits the fields in the order of the dict, so that a value moved to its level is
    moved again: the inner value is lost. *)
Definition m41b : Match := mk_match [("VLAN_VID", (4097, None)); ("VLAN_VID1", (4098, None))].
Theorem C41_restore_refuted : exists r m f r1 m1 r2 m2, reg_ok r /\ match_ok r m /\ tag_field f /\
  demote_match m f 1 r = (r1, Ok m1) /\ promote_match m1 f 1 r1 = (r2, Ok m2) /\
  mget m f = Some (4097, None, 6) /\ mget m2 f = Some (4098, None, 6) /\ In "VLAN_VID1" (mkeys m) /\ ~ In "VLAN_VID1" (mkeys m2).
Proof.
  assert (D : ok_with (demote_match m41b "VLAN_VID" 1 registry_init) (fun m1 => ok_with (promote_match m1 "VLAN_VID" 1 (fst (demote_match m41b "VLAN_VID" 1 registry_init)))
    (fun m2 => mget m2 "VLAN_VID" = Some (4098, None, 6) /\ mkeys m2 = ["VLAN_VID"]))) by (vm_compute; split; reflexivity).
  apply ok_with_ex in D as (r1 & m1 & E1 & D). rewrite E1 in D. apply ok_with_ex in D as (r2 & m2 & E2 & V & K). cbn [fst] in E2.
  exists registry_init, m41b, "VLAN_VID", r1, m1, r2, m2. split; [exact reg_init_ok|]. split; [apply mk_match_ok; vm_compute; reflexivity|].
  split; [exists (Tun "PUSH_VLAN" "POP_VLAN" ["VLAN_VID"; "VLAN_PCP"]); split; [vm_compute; auto|now left]|].
  split; [exact E1|]. split; [exact E2|]. split; [vm_compute; reflexivity|]. split; [exact V|]. split; [vm_compute; auto|]. rewrite K. intros [Q|[]]. discriminate Q.
Qed.
Example C41_ex : reg_ok registry_init /\ match_ok registry_init m41 /\ tag_field "VLAN_VID" /\
  ok_with (demote_match m41 "VLAN_VID" 1 registry_init) (fun m1 => mkeys m1 = ["VLAN_VID1"]) /\
  ~ (1 = 1 /\ In "VLAN_VID" (mkeys m41) /\ In "VLAN_VID1" (mkeys m41)) /\ In "VLAN_VID" (variations m41 "VLAN_VID").
Proof.
  split; [exact reg_init_ok|]. split; [apply mk_match_ok; vm_compute; reflexivity|].
  split; [exists (Tun "PUSH_VLAN" "POP_VLAN" ["VLAN_VID"; "VLAN_PCP"]); split; [vm_compute; auto|now left]|].
  split; [vm_compute; reflexivity|]. split; [intros (_ & _ & H); revert H; vm_compute; intros [Q|[]]; discriminate Q|vm_compute; auto].
Qed.
Print Assumptions C41_demote_promote_partial.
Print Assumptions C41_promote_reports.
Print Assumptions C41_depth_reported_partial.
Print Assumptions C41_depth_error_refuted.
Print Assumptions C41_restore_refuted.

(** ** C42 *)
(** The header after a rule's apply-actions (in the list's canonical order, C28) and
    write-metadata. [below] supplies the tags deeper than the model's headers. *)
Definition header_after (below : packet) (i : instructions) (p : packet) : packet :=
  metadata_header (write_metadata i) (fold_left (fun q a => tag_header below a q) (al_iter (apply_actions i)) p).
(** The rule's match names outermost fields only, and its tag operations are tame: then the
    egress is computed and accepts every packet of the match after the actions. *)
Theorem C42_egress_sound_partial : forall r m i, reg_ok r -> match_ok r m -> real_fields m -> (forall k, In k (mkeys m) -> ~ inner_field k) ->
  tame (fixed_by (items_view (m_items m))) (fun _ => 0) (al_iter (apply_actions i)) ->
  exists r' g, get_goto_egress m i None r = (r', Ok g) /\
  forall below p, match_accepts (items_view (m_items m)) p -> match_accepts (items_view (m_items g)) (header_after below i p).
Proof.
  intros r m i Hr Hm Hk Hn Ht. destruct (tame_egress r m i Hr Hm Hk Hn Ht) as (r' & g & E & _ & _ & _ & P). exists r', g. split; [exact E|exact P].
Qed.
(** So a rule of the next table reported not to overlap cannot be hit. *)
Theorem C42_no_overlap_no_hit_partial : forall r m i other r', reg_ok r -> match_ok r m -> real_fields m -> (forall k, In k (mkeys m) -> ~ inner_field k) ->
  tame (fixed_by (items_view (m_items m))) (fun _ => 0) (al_iter (apply_actions i)) -> match_ok r other ->
  egress_overlap m i other None r = (r', Ok false) ->
  forall below p, match_accepts (items_view (m_items m)) p -> ~ match_accepts (items_view (m_items other)) (header_after below i p).
Proof.
  intros r m i other r' Hr Hm Hk Hn Ht Ho H below p Hp Ha. destruct (tame_egress r m i Hr Hm Hk Hn Ht) as (r1 & g & E & R & L & M & P).
  unfold egress_overlap, sbind in H. rewrite E in H. destruct (match_wc_ok r1 g M) as (wa & Ea & _ & _ & Aa). destruct (match_wc_ok r other Ho) as (wb & Eb & _ & _ & Ab).
  unfold slift, sret in H. rewrite Ea, Eb in H. injection H as _ H. apply negb_false_iff, Z.eqb_eq, wildcard_intersect_zero in H. apply H.
  exists (header_after below i p). split; [apply Aa; now apply P|now apply Ab].
Qed.
(** A push copies the outermost tag; if the rule does not match on it the model takes 0. *)
Definition PUSH_VLAN : action := ("PUSH_VLAN", VInt 33024).
Definition i42 : instructions := mk_full [PUSH_VLAN] [] None false None.
Definition ones : packet := fun _ => true.
Theorem C42_unknown_tag_refuted : exists m i r' g p, match_ok registry_init m /\ (forall k, In k (mkeys m) -> ~ inner_field k) /\
  get_goto_egress m i None registry_init = (r', Ok g) /\ match_accepts (items_view (m_items m)) p /\
  forall below, ~ match_accepts (items_view (m_items g)) (header_after below i p).
Proof.
  assert (D : ok_with (get_goto_egress match_new i42 None registry_init) (fun g => m_items g = [("VLAN_VID", (4096, None, 6)); ("VLAN_PCP", (0, None, 7))])) by (vm_compute; reflexivity).
  apply ok_with_ex in D as (r' & g & E & V). exists match_new, i42, r', g, ones. split; [apply match_new_ok|]. split; [intros k []|]. split; [exact E|].
  split; [intros it []|]. intros below A. rewrite V in A. assert (Q := proj1 (accepts_cbit (MkMatch [("VLAN_VID", (4096, None, 6)); ("VLAN_PCP", (0, None, 7))] 0 None) (header_after below i42 ones) ltac:(repeat constructor; cbn; intuition discriminate)) A 1328 false).
  assert (C : header_after below i42 ones 1328 = false) by (apply Q; vm_compute; reflexivity). revert C. vm_compute. discriminate.
Qed.
(** After two pushes a pop moves the values in the order of the dict: the tag uncovered is
    taken to be the innermost one. *)
Definition i42b : instructions := mk_full [PUSH_VLAN; SETF "VLAN_VID" 2; PUSH_VLAN; ("POP_VLAN", VNone)] [] None false None.
Definition m42 : Match := mk_match [("VLAN_VID", (4097, None)); ("VLAN_PCP", (3, None))].
Definition p42 : packet := fun i => existsb (Z.eqb i) [1328; 1329; 1331; 1343].
Lemma p42_accepts : match_accepts (items_view (m_items m42)) p42.
Proof.
  assert (E : items_view (m_items m42) = [("VLAN_VID", (4097, None)); ("VLAN_PCP", (3, None))]) by (vm_compute; reflexivity). rewrite E.
  intros it [<-|[<-|[]]] s Hs En j Hj _; cbn [fst snd] in *.
  - assert (s = Slot "VLAN_VID" 1331 13) as -> by (apply slot_name_inj; [auto|vm_compute; tauto|exact En]). cbn [sl_bits sl_off] in *.
    assert (Q : j = 0 \/ j = 1 \/ j = 2 \/ j = 3 \/ j = 4 \/ j = 5 \/ j = 6 \/ j = 7 \/ j = 8 \/ j = 9 \/ j = 10 \/ j = 11 \/ j = 12) by lia.
    repeat destruct Q as [->|Q]; try subst j; reflexivity.
  - assert (s = Slot "VLAN_PCP" 1328 3) as -> by (apply slot_name_inj; [auto|vm_compute; tauto|exact En]). cbn [sl_bits sl_off] in *.
    assert (Q : j = 0 \/ j = 1 \/ j = 2) by lia. repeat destruct Q as [->|Q]; try subst j; reflexivity.
Qed.
Theorem C42_pop_order_refuted : exists m i r' g p, match_ok registry_init m /\ real_fields m /\ (forall k, In k (mkeys m) -> ~ inner_field k) /\
  (forall f, In f ["VLAN_VID"; "VLAN_PCP"] -> fixed_by (items_view (m_items m)) f) /\
  get_goto_egress m i None registry_init = (r', Ok g) /\ match_accepts (items_view (m_items m)) p /\
  forall below, ~ match_accepts (items_view (m_items g)) (header_after below i p).
Proof.
  assert (D : ok_with (get_goto_egress m42 i42b None registry_init) (fun g => m_items g = [("VLAN_VID", (4097, None, 6)); ("VLAN_PCP", (3, None, 7))])) by (vm_compute; reflexivity).
  assert (T : tag_field "VLAN_VID" /\ tag_field "VLAN_PCP").
  { split; exists (Tun "PUSH_VLAN" "POP_VLAN" ["VLAN_VID"; "VLAN_PCP"]); (split; [vm_compute; auto|cbn; auto]). }
  assert (K : forall k, In k (mkeys m42) -> k = "VLAN_VID" \/ k = "VLAN_PCP") by (intros k; vm_compute; intuition).
  assert (Ok : match_ok registry_init m42) by (apply mk_match_ok; vm_compute; reflexivity).
  apply ok_with_ex in D as (r' & g & E & V). exists m42, i42b, r', g, p42. split; [exact Ok|]. split.
  { intros k Hk. destruct (K k Hk) as [-> | ->]; [destruct (tag_levels _ (proj1 T)) as (b & (_ & s & A & B & _) & _)|destruct (tag_levels _ (proj2 T)) as (b & (_ & s & A & B & _) & _)]; eauto. }
  split; [intros k Hk; apply not_inner; destruct (K k Hk) as [-> | ->]; reflexivity|]. split.
  { intros f [<-|[<-|[]]]; [exists 4097|exists 3]; vm_compute; auto. }
  split; [exact E|]. split.
  { exact p42_accepts. }
  intros below A. rewrite V in A. assert (Q := proj1 (accepts_cbit (MkMatch [("VLAN_VID", (4097, None, 6)); ("VLAN_PCP", (3, None, 7))] 0 None) (header_after below i42b p42) ltac:(repeat constructor; cbn; intuition discriminate)) A 1331 true).
  assert (C : header_after below i42b p42 1331 = true) by (apply Q; vm_compute; reflexivity). revert C. vm_compute. discriminate.
Qed.
(** tame: the rule matches on the VLAN tag, pushes one, sets its id and pops it again *)
Definition i42c : instructions := mk_full [PUSH_VLAN; SETF "VLAN_VID" 2; ("POP_VLAN", VNone)] [] None false (Some (3, None)).
Example C42_ex : reg_ok registry_init /\ match_ok registry_init m42 /\ real_fields m42 /\ (forall k, In k (mkeys m42) -> ~ inner_field k) /\
  tame (fixed_by (items_view (m_items m42))) (fun _ => 0) (al_iter (apply_actions i42c)) /\
  ok_with (egress_overlap m42 i42c (mk_match [("VLAN_VID", (4098, None))]) None registry_init) (fun b => b = false) /\
  ok_with (egress_overlap m42 i42c (mk_match [("VLAN_VID", (4097, None))]) None registry_init) (fun b => b = true).
Proof.
  assert (T : tag_field "VLAN_VID" /\ tag_field "VLAN_PCP").
  { split; exists (Tun "PUSH_VLAN" "POP_VLAN" ["VLAN_VID"; "VLAN_PCP"]); (split; [vm_compute; auto|cbn; auto]). }
  assert (K : forall k, In k (mkeys m42) -> k = "VLAN_VID" \/ k = "VLAN_PCP") by (intros k; vm_compute; intuition).
  assert (L : exists s, In s layout /\ sl_name s = "VLAN_VID") by (destruct (tag_levels _ (proj1 T)) as (b & (_ & s & A & B & _) & _); eauto).
  split; [exact reg_init_ok|]. split; [apply mk_match_ok; vm_compute; reflexivity|]. split.
  { intros k Hk. destruct (K k Hk) as [-> | ->]; [exact L|destruct (tag_levels _ (proj2 T)) as (b & (_ & s & A & B & _) & _); eauto]. }
  split; [intros k Hk; apply not_inner; destruct (K k Hk) as [-> | ->]; reflexivity|]. split.
  - assert (E : al_iter (apply_actions i42c) = [PUSH_VLAN; SETF "VLAN_VID" 2; ("POP_VLAN", VNone)]) by (vm_compute; reflexivity). rewrite E. cbn.
    split; [lia|]. split; [intros f [<-|[<-|[]]]; [exists 4097|exists 3]; vm_compute; auto|]. exists "VLAN_VID", 2. split; [reflexivity|]. split; [exact L|].
    split; [apply not_inner; reflexivity|]. split; [lia|exact Logic.I].
  - split; vm_compute; reflexivity.
Qed.
Print Assumptions C42_egress_sound_partial.
Print Assumptions C42_no_overlap_no_hit_partial.
Print Assumptions C42_unknown_tag_refuted.
Print Assumptions C42_pop_order_refuted.
