(** Properties C73 and C74: the conversion to and from Ryu. *)
From Coq Require Import ZifyBool ZifyNat ZifyN Permutation.
From Verif Require Import SpecRyu FormatProofs MatchProofs RyuProofs.
Import Text.
Local Open Scope string_scope.
Local Open Scope list_scope.
Local Open Scope Z_scope.
Local Opaque NB WC_FULLWC layout oxm_fields registry_init.

(** ** C73: a ruleset survives the way to Ryu and back, provided no value looks like the text
    of an address when written as bytes. Missing: the general statement, which is false. *)
Theorem C73_round_trip_partial : forall link rules c,
  Forall (fun ru => built ru /\ Forall carried (m_items (rmatch ru))) rules ->
  exists fs rules', ruleset_to_ryu link rules c = Ok (fs, c) /\ ruleset_from_ryu registry_init fs = Ok (registry_init, rules') /\
  Forall2 (fun a b => core_eqb a b = true) rules rules'.
Proof.
  intros link rules c H. apply ruleset_trip; [exact reg_init_ok|]. eapply Forall_impl; [|exact H].
  intros ru [(items & xs & ws & E & Ha & Hw & Oa & Ow & W & M) C]. destruct (built_match _ _ _ E) as (_ & Hm & Hn).
  split; [exact Hm|]. split; [exact Hn|]. split; [exact C|]. split; [exact W|]. split; [exact M|]. split; eauto.
Qed.
(** In fields of one byte nothing goes wrong, in fields of two bytes only the value 0x3a3a =
    14906 (the text "::"), which is read as 0. *)
Theorem C73_one_byte : forall v bs, bytes_are 1 v bs -> normalise_bytes bs = Ok v.
Proof.
  intros v bs [L W]. destruct bs as [|a [|]]; try discriminate L. rewrite normalise_plain.
  - rewrite from_bytes_weigh. now f_equal.
  - assert (CO : forall c, (count_occ ascii_dec [a] c <= 1)%nat) by (intros c; cbn; destruct (ascii_dec a c); lia).
    repeat split; try (match goal with |- context [count_occ ascii_dec [a] ?c] => pose proof (CO c); lia end).
    intros (x & y & Q). destruct x as [|x0 x]; [discriminate Q|]. destruct x; discriminate Q.
Qed.
Lemma bytes_unique n : forall v bs bs', bytes_are n v bs -> bytes_are n v bs' -> bs = bs'.
Proof.
  induction n as [|n IH]; intros v bs bs' [L W] [L' W'].
  - destruct bs; [|discriminate]. destruct bs'; [reflexivity|discriminate].
  - destruct bs as [|c bs] using rev_ind; [discriminate|]. destruct bs' as [|c' bs'] using rev_ind; [discriminate|]. clear IHbs IHbs'.
    rewrite app_length in L, L'. cbn [List.length] in L, L'. rewrite map_app in W, W'. cbn [map] in W, W'. rewrite weigh_snoc in W, W'.
    assert (R := ord_range c). assert (R' := ord_range c'). unfold ord in R, R'.
    assert (ord c = ord c').
    { unfold ord. rewrite <- W' in W. apply (f_equal (fun z => z mod 256)) in W.
      rewrite !(Z.add_comm (_ * 256)), !Z_mod_plus_full, !Z.mod_small in W; auto. }
    assert (c = c') as <- by now apply ord_inj.
    rewrite (IH (weigh 256 (map (fun c => Z.of_N (N_of_ascii c)) bs)) bs bs'); [reflexivity|split; [lia|reflexivity]|split; lia].
Qed.
Theorem C73_two_bytes : forall v bs, bytes_are 2 v bs -> normalise_bytes bs = Ok (if v =? 0x3a3a then 0 else v).
Proof.
  intros v bs H. assert (R : 0 <= v < 65536).
  { destruct H as [L W]. destruct bs as [|a [|b [|]]]; try discriminate L. cbn in W.
    assert (R := ord_range a). assert (R' := ord_range b). unfold ord in R, R'. lia. }
  rewrite (bytes_unique 2 v bs (to_bytes 2 v)); auto; [now apply normalise_two|]. apply to_bytes_are. exact R.
Qed.
Definition tcp_rule (port : Z) : core :=
  mkCore 10 (Some 0) (snd (match_append_all registry_init match_new [("ETH_TYPE", (0x800, None)); ("IP_PROTO", (6, None)); ("TCP_DST", (port, None))]))
    (mkInst None (match al_of [("OUTPUT", VInt 1)] with Ok a => a | Err _ => al_empty end) al_empty None false None) 0.
Local Transparent registry_init oxm_fields.
(** A rule for TCP port 14906 comes back as a rule for port 0. *)
Theorem C73_round_trip_refuted : exists ru, built ru /\ exists f r' ru', rule_to_ryu (fun _ => None) ru 0 = Ok (f, [], 0) /\
  rule_from_ryu registry_init f = Ok (r', ru') /\ core_eqb ru ru' = false /\
  dict_get (m_items (rmatch ru)) "TCP_DST" = Some (14906, None, 14) /\ dict_get (m_items (rmatch ru')) "TCP_DST" = Some (0, None, 14).
Proof.
  exists (tcp_rule 14906). split.
  - exists [("ETH_TYPE", (0x800, None)); ("IP_PROTO", (6, None)); ("TCP_DST", (14906, None))], [("OUTPUT", VInt 1)], [].
    split; [vm_compute; reflexivity|]. split; [vm_compute; reflexivity|]. split; [vm_compute; reflexivity|]. split; [|split; [constructor|split; reflexivity]].
    constructor; [|constructor]. right. left. split; [cbn; tauto|]. now exists 1.
  - do 3 eexists. split; [vm_compute; reflexivity|]. split; [vm_compute; reflexivity|]. vm_compute. auto.
Qed.
(** A rule for the address 58.58.1.2 cannot be read back at all. *)
Theorem C73_reads_back_refuted : exists m f, match_append_all registry_init match_new [("ETH_TYPE", (0x800, None)); ("IPV4_DST", (0x3a3a0102, None))] = (registry_init, m) /\
  match_to_ryu m = Ok f /\ match_from_ryu registry_init match_new f = Err ValueError.
Proof. do 2 eexists. split; [vm_compute; reflexivity|]. split; [vm_compute; reflexivity|]. vm_compute. reflexivity. Qed.
Local Opaque registry_init oxm_fields.
(** The inner headers of tunnelled rules have no name in Ryu. *)
Theorem C73_unknown_field : forall link ru c k, In k (map fst (m_items (rmatch ru))) -> sassoc (str_lower k) ryu_types = None ->
  rule_to_ryu link ru c = Err KeyError.
Proof. intros link ru c k H N. unfold rule_to_ryu. now rewrite (unknown_field _ _ H N). Qed.
(** write-metadata can be read but not written *)
Theorem C73_metadata : forall link ru c v fs, match_to_ryu (rmatch ru) = Ok fs -> write_metadata (inst ru) = Some v -> rule_to_ryu link ru c = Err AssertionError.
Proof. intros link ru c v fs M W. unfold rule_to_ryu. rewrite M. cbn [rbind]. unfold instructions_to_ryu. now rewrite W. Qed.
Example C73_ex : built (tcp_rule 80) /\ Forall carried (m_items (rmatch (tcp_rule 80))).
Proof.
  split.
  - exists [("ETH_TYPE", (0x800, None)); ("IP_PROTO", (6, None)); ("TCP_DST", (80, None))], [("OUTPUT", VInt 1)], [].
    split; [vm_compute; reflexivity|]. split; [vm_compute; reflexivity|]. split; [vm_compute; reflexivity|]. split; [|split; [constructor|split; reflexivity]].
    constructor; [|constructor]. right. left. split; [cbn; tauto|]. now exists 1.
  - assert (E : m_items (rmatch (tcp_rule 80)) = [("ETH_TYPE", (0x800, None, 5)); ("IP_PROTO", (6, None, 10)); ("TCP_DST", (80, None, 14))]) by (vm_compute; reflexivity).
    rewrite E. clear E.
    assert (K : forall n v, 0 <= v < 256 ^ Z.of_nat n -> unlike_text (to_bytes n v) -> sendable n v).
    { intros n v R U. split; auto. intros bs B. now rewrite (bytes_unique n v bs _ B (to_bytes_are n v R)). }
    assert (U : forall a b, a <> ":"%char -> unlike_text [a; b]).
    { intros a b N. unfold unlike_text. assert (forall c, (count_occ ascii_dec [a; b] c <= 2)%nat) as CO.
      { intros c. cbn. destruct (ascii_dec a c), (ascii_dec b c); lia. }
      repeat split; try (match goal with |- context [count_occ ascii_dec [a; b] ?c] => pose proof (CO c); lia end).
      intros (x & y & Q). destruct x as [|x0 x]; [injection Q as -> _ _; now apply N|]. destruct x as [|x1 x]; [discriminate Q|]. destruct x; discriminate Q. }
    constructor; [|constructor; [|constructor; [|constructor]]].
    + exists 2%nat. split; [cbn; tauto|]. split; [|auto]. apply K; [cbn; lia|]. apply U. discriminate.
    + exists 1%nat. split; [cbn; tauto|]. split; [|auto]. apply K; [cbn; lia|].
      split; [cbn; lia|]. split; [cbn; lia|]. split; [|split; cbn; lia]. intros (x & y & Q). destruct x as [|x0 x]; [discriminate Q|]. destruct x; discriminate Q.
    + exists 2%nat. split; [cbn; tauto|]. split; [|auto]. apply K; [cbn; lia|]. apply U. discriminate.
Qed.
Print Assumptions C73_round_trip_partial.
Print Assumptions C73_one_byte.
Print Assumptions C73_two_bytes.
Print Assumptions C73_round_trip_refuted.
Print Assumptions C73_reads_back_refuted.
Print Assumptions C73_unknown_field.
Print Assumptions C73_metadata.

(** ** C74: groups. Every Group object is sent before it is used, and what arrives means the
    original actions. *)
Theorem C74_references : forall link ru c f ms c', rule_to_ryu link ru c = Ok (f, ms, c') ->
  Forall group_objects (al_iter (write_actions (inst ru))) -> Forall group_objects (al_iter (apply_actions (inst ru))) ->
  installable [] ms /\
  (forall l, In (OFPInstructionWriteActions l) (f_instructions f) -> list_means ms l (al_iter (write_actions (inst ru))) /\ incl (refs l) (map gm_id ms)) /\
  (forall l, In (OFPInstructionApplyActions l) (f_instructions f) -> list_means ms l (al_iter (apply_actions (inst ru))) /\ incl (refs l) (map gm_id ms)).
Proof.
  intros link ru c f ms c' E Gw Ga. unfold rule_to_ryu in E. apply ActionProofs.rbind_ok in E as (fs & _ & E).
  apply ActionProofs.rbind_ok in E as ([[is ms'] cc] & E & E'). injection E' as <- <- <-. cbn [f_instructions].
  destruct (instructions_good link _ _ _ _ _ _ E Gw Ga) as (H1 & H2 & H3 & _). auto.
Qed.
(** The groups of one rule have different numbers, when all of them are numbered by the counter
    (which every call moves on: the numbers of two rules differ too). Missing: the interface
    groups, for which it is false. *)
Theorem C74_numbers_partial : forall link ru c f ms c', rule_to_ryu link ru c = Ok (f, ms, c') ->
  Forall group_objects (al_iter (write_actions (inst ru))) -> Forall group_objects (al_iter (apply_actions (inst ru))) ->
  Forall (counted link) (al_iter (write_actions (inst ru))) -> Forall (counted link) (al_iter (apply_actions (inst ru))) ->
  c' = c + Z.of_nat (List.length ms) /\ (c' - c <= 65536 -> NoDup (map gm_id ms)) /\
  (forall m, In m ms -> exists k, c < k <= c' /\ gm_id m mod 65536 = k mod 65536).
Proof.
  intros link ru c f ms c' E Gw Ga Cw Ca. unfold rule_to_ryu in E. apply ActionProofs.rbind_ok in E as (fs & _ & E).
  apply ActionProofs.rbind_ok in E as ([[is ms'] cc] & E & E'). injection E' as <- <- <-.
  destruct (instructions_good link _ _ _ _ _ _ E Gw Ga) as (_ & _ & _ & H). specialize (H Cw Ca). split; [|split].
  - destruct H as (n & -> & P). apply Permutation_length in P. unfold block in P. rewrite !map_length, seq_length in P. lia.
  - intros L. eapply numbered_nodup; eauto.
  - intros m Hm. destruct H as (n & -> & P). apply (in_map (fun m => low (gm_id m))) in Hm. apply (Permutation_in _ P) in Hm.
    unfold block in Hm. apply in_map_iff in Hm as (i & Ei & Hi). apply in_seq in Hi. exists (c + 1 + Z.of_nat i). split; [lia|]. symmetry. exact Ei.
Qed.
(** Two different groups with one number: an L2 Interface group of VLAN 0 and port 1, and the
    first group of an unknown pattern. *)
Theorem C74_numbers_refuted : exists b b' c1 c2, group_ofdpa_id (Some "L2 Interface") (Some 0x1000) (Some b) 0 = Ok (1, c1) /\
  group_ofdpa_id (Some "My Group") (Some 0x1000) (Some b') c1 = Ok (1, c2) /\ b <> b'.
Proof. exists [("OUTPUT", VInt 1)], [("OUTPUT", VInt 2)], 0, 1. split; [vm_compute; reflexivity|]. split; [vm_compute; reflexivity|]. discriminate. Qed.
(** Without a Table Type Pattern no Group object can be converted: the documented fallback, the
    next unused number, is never reached. *)
Theorem C74_no_pattern : forall vlan t bs c, group_to_ryu (fun _ => None) vlan (VGroup t bs) c = Err AttributeError.
Proof. intros vlan t bs c. rewrite group_to_ryu_eq. destruct (negb (str_in (str_upper t) group_types)); reflexivity. Qed.
(** An L2 Interface group in a rule that does not match a VLAN *)
Theorem C74_unbound : forall b c, group_ofdpa_id (Some "L2 Interface") None b c = Err UnboundLocalError.
Proof. reflexivity. Qed.
Definition ex74 : list action :=
  [("OUTPUT", VInt 7); ("GROUP", VGroup "all" [[("GROUP", VGroup "indirect" [[("OUTPUT", VInt 1)]])]; [("POP_VLAN", VNone); ("OUTPUT", VInt 2)]])].
Definition link74 (v : aval) : option string := match v with VGroup "all" _ => Some "L2 Flood" | VGroup _ _ => Some "L2 Rewrite" | _ => None end.
Example C74_ex : Forall group_objects ex74 /\ Forall (counted link74) ex74 /\
  actions_to_ryu link74 (Some 0x1005) ex74 0 =
  Ok ([OFPActionOutput (VInt 7); OFPActionGroup (VInt 0x40050001)],
      [mkGM "INDIRECT" 2 [[OFPActionOutput (VInt 1)]];
       mkGM "ALL" 0x40050001 [[OFPActionGroup (VInt 2)]; [OFPActionPopVlan; OFPActionOutput (VInt 2)]]], 2).
Proof.
  assert (O : forall n, ordinary ("OUTPUT", VInt n)) by (intros n; right; left; split; [cbn; tauto|eauto]).
  split; [|split; [|vm_compute; reflexivity]].
  - constructor; [apply go_plain; [apply O|discriminate]|]. constructor; [|constructor]. apply go_group. intros b a [<-|[<-|[]]] Ha.
    + destruct Ha as [<-|[]]. apply go_group. intros b a [<-|[]] [<-|[]]. apply go_plain; [apply O|discriminate].
    + destruct Ha as [<-|[<-|[]]]; (apply go_plain; [|discriminate]); [left; split; [cbn; tauto|reflexivity]|apply O].
  - constructor; [apply ct_plain; discriminate|]. constructor; [|constructor]. apply (ct_group _ _ _ "L2 Flood"); [reflexivity|discriminate|discriminate|].
    intros b a [<-|[<-|[]]] Ha.
    + destruct Ha as [<-|[]]. apply (ct_group _ _ _ "L2 Rewrite"); [reflexivity|discriminate|discriminate|]. intros b a [<-|[]] [<-|[]]. apply ct_plain; discriminate.
    + destruct Ha as [<-|[<-|[]]]; apply ct_plain; discriminate.
Qed.
Print Assumptions C74_references.
Print Assumptions C74_numbers_partial.
Print Assumptions C74_numbers_refuted.
Print Assumptions C74_no_pattern.
Print Assumptions C74_unbound.
