(** Properties C75 and C76: the conversion to and from the text of Open vSwitch. *)
From Coq Require Import Lia ZifyBool ZifyNat.
From Verif Require Import SpecOvs OvsFlows OvsWrite OvsGroups.
Import Text.
Local Open Scope string_scope.
Local Open Scope list_scope.
Local Open Scope Z_scope.

(** ** C75: a ruleset written as text of Open vSwitch is read back as an equal one. Missing: the
    fields, actions and rules that are not [writable], see the refutations below. *)
Theorem C75_ovs_round_trip_partial : forall rules, Forall writable rules -> exists file rules',
  ruleset_to_ovs rules = Ok file /\ ruleset_from_ovs registry_init file = Ok (registry_init, rules') /\
  Forall2 (fun a b => core_eqb a b = true /\ made b) rules rules'.
Proof. exact ruleset_round. Qed.
(** One rule, in whatever table of groups it is read. *)
Theorem C75_ovs_rule_round_trip_partial : forall groups ru, NoDup (map fst groups) -> writable ru -> exists line ru',
  rule_to_ovs ru = Ok line /\ rule_from_ovs registry_init groups line = Ok (registry_init, ru') /\ core_eqb ru ru' = true /\ made ru'.
Proof. intros groups ru N W. destruct (rule_round groups ru N W) as (line & ru' & A & B & C & _ & _ & _ & _ & D). exists line, ru'. auto. Qed.

(** *** Rules for the examples *)
Definition got {X} (d : X) (r : result X) : X := match r with Ok x => x | Err _ => d end.
Definition a_rule (ck : option Z) (fs : list (string * (Z * option Z))) (a w : list action) (i : alist -> alist -> instructions) : core :=
  mkCore 10 ck (snd (match_append_all registry_init match_new fs)) (i (got al_empty (al_of a)) (got al_empty (as_of w))) 1.
Definition just (a w : alist) : instructions := mkInst None a w None false None.
Definition web : core :=
  a_rule (Some 0x2a) [("ETH_TYPE", (0x800, None)); ("IPV4_DST", (0xc0a80000, Some 0xffff0000)); ("TCP_DST", (80, None)); ("VLAN_VID", (0x1001, None))]
    [("SET_FIELD", VSet "ETH_DST" 0xa0b0c0d0e0f); ("DEC_NW_TTL", VNone); ("OUTPUT", VInt 3); ("PUSH_VLAN", VInt 0x8100); ("SET_FIELD", VSet "VLAN_VID" 5)]
    [("SET_QUEUE", VInt 2); ("OUTPUT", VInt 0xfffffffd)]
    (fun a w => mkInst (Some 5) a w (Some (0x10, Some 0xff)) true None).
Local Ltac member := repeat (first [left; reflexivity | right]).
Local Ltac fits := eexists; split; [member|vm_compute; split; [discriminate|reflexivity]].
Local Ltac action :=
  first [left; split; [member|reflexivity] | right; left; split; [member|eexists; split; [reflexivity|vm_compute; discriminate]]
        | right; right; split; [reflexivity|do 2 eexists; split; [reflexivity|split; [fits|first [discriminate|intros _; vm_compute; reflexivity]]]]].
Example C75_ex : writable web.
Proof.
  exists [("ETH_TYPE", (0x800, None)); ("IPV4_DST", (0xc0a80000, Some 0xffff0000)); ("TCP_DST", (80, None)); ("VLAN_VID", (0x1001, None))],
    [("SET_FIELD", VSet "ETH_DST" 0xa0b0c0d0e0f); ("DEC_NW_TTL", VNone); ("OUTPUT", VInt 3); ("PUSH_VLAN", VInt 0x8100); ("SET_FIELD", VSet "VLAN_VID" 5)],
    [("SET_QUEUE", VInt 2); ("OUTPUT", VInt 0xfffffffd)].
  split; [vm_compute; reflexivity|]. split; [|split; [vm_compute; reflexivity|split; [vm_compute; reflexivity|]]].
  - assert (E : m_items (rmatch web) = [("ETH_TYPE", (0x800, None, 5)); ("IPV4_DST", (0xc0a80000, Some 0xffff0000, 12)); ("TCP_DST", (80, None, 14)); ("VLAN_VID", (0x1001, None, 6))])
      by (vm_compute; reflexivity).
    rewrite E. clear E. repeat constructor; fits.
  - split; [repeat apply Forall_cons; try apply Forall_nil; action|]. split; [repeat apply Forall_cons; try apply Forall_nil; action|].
    split; [exists 0x2a; split; [reflexivity|vm_compute; discriminate]|]. repeat split; vm_compute; discriminate.
Qed.
Example C75_ex_text : rmap S_ (rule_to_ovs web) = Ok ("cookie=0x2a, table=1, priority=10,eth_type=0x800,ip_dst=192.168.0.0/255.255.0.0,tcp_dst=80,vlan_vid=4097 " ++
  "actions=dec_ttl,set_field:0a:0b:0c:0d:0e:0f->eth_dst,output:3,push_vlan:0x8100,set_field:4101->vlan_vid,clear_actions," ++
  "write_actions(set_queue:2,output:4294967293),write_metadata:16/255,goto_table:5")%string.
Proof. vm_compute. reflexivity. Qed.


(** *** What is lost *)
(** IPv6 addresses: sixteen groups of two digits are written, which is no address; read as the
    bytes of the text. *)
Definition six : core := a_rule (Some 0) [("ETH_TYPE", (0x86dd, None)); ("IPV6_DST", (0x20010db8000000000000000000000001, None))] [("OUTPUT", VInt 1)] [] just.
Definition read_back (ru : core) : result core := do line <- rule_to_ovs ru; rmap snd (rule_from_ovs registry_init [] line).
Theorem C75_ipv6_refuted : exists ru', read_back six = Ok ru' /\ core_eqb six ru' = false /\
  match dict_get (m_items (rmatch ru')) "IPV6_DST" with Some (v, _, _) => 2 ^ 128 < v | None => False end.
Proof. eexists. split; [vm_compute; reflexivity|]. split; vm_compute; reflexivity. Qed.
(** A flow label, a group, a TTL copy cannot be written. *)
Theorem C75_written_refuted :
  rule_to_ovs (a_rule (Some 0) [("ETH_TYPE", (0x86dd, None)); ("IPV6_FLABEL", (1, None))] [("OUTPUT", VInt 1)] [] just) = Err NotImplementedError /\
  rule_to_ovs (a_rule (Some 0) [] [("GROUP", VGroup "all" [[("OUTPUT", VInt 1)]])] [] just) = Err NotImplementedError /\
  rule_to_ovs (a_rule (Some 0) [] [("COPY_TTL_OUT", VNone); ("OUTPUT", VInt 1)] [] just) = Err NotImplementedError.
Proof. vm_compute. auto. Qed.
(** The CFI bit of a VLAN id in set_field is lost. *)
Theorem C75_vlan_refuted : exists ru ru', ru = a_rule (Some 0) [] [("SET_FIELD", VSet "VLAN_VID" 0x1001); ("OUTPUT", VInt 1)] [] just /\
  read_back ru = Ok ru' /\ core_eqb ru ru' = false /\ orig_order (apply_actions (inst ru')) = [("SET_FIELD", VSet "VLAN_VID" 1); ("OUTPUT", VInt 1)].
Proof. do 2 eexists. split; [reflexivity|]. split; [vm_compute; reflexivity|]. split; vm_compute; reflexivity. Qed.
(** The cookie None is written as 0, which is another cookie. *)
Theorem C75_cookie_refuted : exists ru ru', ru = a_rule None [("IN_PORT", (1, None))] [("OUTPUT", VInt 1)] [] just /\
  read_back ru = Ok ru' /\ core_eqb ru ru' = false /\ cookie ru' = Some 0.
Proof. do 2 eexists. split; [reflexivity|]. split; [vm_compute; reflexivity|]. split; vm_compute; reflexivity. Qed.
(** The text does not say which meter a rule has: it is always lost, without an error. *)
Theorem C75_meter_lost : forall ru m, rule_to_ovs ru =
  rule_to_ovs (mkCore (priority ru) (cookie ru) (rmatch ru)
    (mkInst (goto_table (inst ru)) (apply_actions (inst ru)) (write_actions (inst ru)) (write_metadata (inst ru)) (clear_actions (inst ru)) m) (table ru)).
Proof. reflexivity. Qed.
Print Assumptions C75_ovs_round_trip_partial.
Print Assumptions C75_ovs_rule_round_trip_partial.
Print Assumptions C75_ipv6_refuted.
Print Assumptions C75_written_refuted.
Print Assumptions C75_vlan_refuted.
Print Assumptions C75_cookie_refuted.
Print Assumptions C75_meter_lost.

(** ** C76: the reader understands flows in the documented syntax. Missing: the parts of the
    syntax below that are read as something else, and what [item_text], [action_text] and
    [piece_text] leave out. *)
Theorem C76_flow_read_partial : forall r groups line its ps a w,
  NoDup (map fst groups) -> flow_text groups line its ps ->
  al_of (applied ps) = Ok a -> (forall l, In (PWrite l) ps -> exists x, as_of l = Ok x) ->
  match written ps with Some l => as_of l = Ok w | None => w = al_empty end ->
  exists r' m, match_append_all r match_new (fields_of its) = (r', m) /\
    rule_from_ovs r groups line = Ok (r', mkCore (or_else (priority_of its) 32768) (cookie_of its) m
      (mkInst (goto_of ps) a w (metadata_of ps) (cleared ps) None) (or_else (table_of its) 0)).
Proof.
  intros r groups line its ps a w N F A W L. rewrite (rule_read r groups line its ps a w N F A W L).
  destruct (match_append_all r match_new (fields_of its)) as [r' m]. exists r', m. split; reflexivity.
Qed.

(** *** A flow as dump-flows prints it *)
Definition digit_of (base : Z) (c : ascii) : option Z :=
  option_map snd (find (fun p : ascii * Z => Ascii.eqb (fst p) c && (snd p <? base)) digit_table).
Fixpoint numeral_back (base : Z) (s : list ascii) : option Z :=
  match s with
  | [] => None
  | [c] => digit_of base c
  | c :: t => match digit_of base c, numeral_back base t with Some d, Some n => Some (n * base + d) | _, _ => None end
  end.
Lemma digit_of_ok base c d : digit_of base c = Some d -> In (c, d) digit_table /\ d < base.
Proof.
  unfold digit_of. destruct (find _ _) as [[c' d']|] eqn:E; [|discriminate]. intros Q. injection Q as <-.
  apply find_some in E as [I E]. cbn [fst snd] in *. apply andb_prop in E as [E1 E2]. apply Ascii.eqb_eq in E1 as ->. split; [exact I|lia].
Qed.
Lemma numeral_by base s n : numeral_back base (rev s) = Some n -> numeral base s n.
Proof.
  rewrite <- (rev_involutive s) at 2. generalize (rev s). clear s. intros s. revert n. induction s as [|c t IH]; intros n E; [discriminate|].
  cbn [rev numeral_back] in *. destruct t as [|c' t].
  - apply digit_of_ok in E as [I L]. now constructor.
  - destruct (digit_of base c) as [d|] eqn:D; [|discriminate]. destruct (numeral_back base (c' :: t)) as [k|]; [|discriminate].
    injection E as <-. apply digit_of_ok in D as [I L]. constructor; auto.
Qed.
Local Ltac num := apply numeral_by; vm_compute; reflexivity.
Local Ltac dec := apply nt_dec; [num|first [left; reflexivity|right; discriminate]].
Local Ltac sep := repeat constructor; unfold separator; cbn; tauto.
Definition a_flow : string :=
  "cookie=0x2b, duration=9.5s, table=2, n_packets=7, priority=100,tcp,in_port=3,nw_src=10.0.0.0/8,vlan_vid=0x1000/0x1000,dl_dst=aa:bb:0c:dd:ee:ff actions=push_vlan:0x8100, set_field:4101->vlan_vid,ALL,group:1,clear_actions,write_actions(dec_ttl,output:LOCAL),goto_table:7".
Definition a_group : aval := VGroup "all" [[("OUTPUT", VInt 1)]; [("OUTPUT", VInt 2)]].
Definition a_items : list item :=
  [ICookie 0x2b; INothing; ITable 2; INothing; IPriority 100; IFields [("ETH_TYPE", (0x800, None)); ("IP_PROTO", (6, None))];
   IFields [("IN_PORT", (3, None))]; IFields [("IPV4_SRC", (0x0a000000, Some 0xff000000))]; IFields [("VLAN_VID", (0x1000, Some 0x1000))];
   IFields [("ETH_DST", (0xaabb0cddeeff, None))]].
Definition a_pieces : list piece :=
  [PAct [("PUSH_VLAN", VInt 0x8100)]; PAct [("SET_FIELD", VSet "VLAN_VID" 5)]; PAct [("OUTPUT", VInt 0xfffffffc)]; PAct [("GROUP", a_group)]; PClear;
   PWrite [("DEC_NW_TTL", VNone); ("OUTPUT", VInt 0xfffffffe)]; PGoto 7].
Lemma more_item a w c i s l whole : whole = a ++ w ++ c :: s -> Forall separator a -> separator c -> item_text w i -> items_text s l -> items_text whole (i :: l).
Proof. intros -> A C W S'. now constructor. Qed.
Lemma more_piece {X} (P : text -> X -> Prop) a w b x s l whole : whole = a ++ w ++ b ++ T "," ++ s -> gap a -> gap b -> P w x -> listed P s l -> listed P whole (x :: l).
Proof. intros -> A B W S'. now constructor. Qed.
Lemma last_piece {X} (P : text -> X -> Prop) w x : P w x -> listed P w [x].
Proof. intros W. rewrite <- (app_nil_r w). apply (li_last P [] w []); auto; constructor. Qed.
Local Ltac it a w c rest := apply (more_item (T a) (T w) c _ (T rest)); [vm_compute; reflexivity|sep|sep| |].
Local Ltac pc a w rest := apply (more_piece _ (T a) (T w) [] _ (T rest)); [vm_compute; reflexivity|sep|constructor| |].
Example C76_ex_text : flow_text [(1, a_group)] (T a_flow) a_items a_pieces.
Proof.
  exists (T "cookie=0x2b, duration=9.5s, table=2, n_packets=7, priority=100,tcp,in_port=3,nw_src=10.0.0.0/8,vlan_vid=0x1000/0x1000,dl_dst=aa:bb:0c:dd:ee:ff "),
    (T "push_vlan:0x8100, set_field:4101->vlan_vid,ALL,group:1,clear_actions,write_actions(dec_ttl,output:LOCAL),goto_table:7").
  split; [vm_compute; reflexivity|]. split; [|right].
  - it "" "cookie=0x2b" ","%char " duration=9.5s, table=2, n_packets=7, priority=100,tcp,in_port=3,nw_src=10.0.0.0/8,vlan_vid=0x1000/0x1000,dl_dst=aa:bb:0c:dd:ee:ff ".
    { apply (it_cookie (T "0x2b")). apply (nt_hex (T "2b")). num. }
    it " " "duration=9.5s" ","%char " table=2, n_packets=7, priority=100,tcp,in_port=3,nw_src=10.0.0.0/8,vlan_vid=0x1000/0x1000,dl_dst=aa:bb:0c:dd:ee:ff ".
    { apply (it_dump "duration" (T "9.5s")); [member|]. repeat constructor; try (vm_compute; intuition discriminate); vm_compute; lia. }
    it " " "table=2" ","%char " n_packets=7, priority=100,tcp,in_port=3,nw_src=10.0.0.0/8,vlan_vid=0x1000/0x1000,dl_dst=aa:bb:0c:dd:ee:ff ".
    { apply (it_table (T "2")). dec. }
    it " " "n_packets=7" ","%char " priority=100,tcp,in_port=3,nw_src=10.0.0.0/8,vlan_vid=0x1000/0x1000,dl_dst=aa:bb:0c:dd:ee:ff ".
    { apply (it_dump "n_packets" (T "7")); [member|]. repeat constructor; try (vm_compute; intuition discriminate); vm_compute; lia. }
    it " " "priority=100" ","%char "tcp,in_port=3,nw_src=10.0.0.0/8,vlan_vid=0x1000/0x1000,dl_dst=aa:bb:0c:dd:ee:ff ".
    { apply (it_priority (T "100")). dec. }
    it "" "tcp" ","%char "in_port=3,nw_src=10.0.0.0/8,vlan_vid=0x1000/0x1000,dl_dst=aa:bb:0c:dd:ee:ff ".
    { apply (it_short "tcp" [("ETH_TYPE", 0x0800); ("IP_PROTO", 6)]). member. }
    it "" "in_port=3" ","%char "nw_src=10.0.0.0/8,vlan_vid=0x1000/0x1000,dl_dst=aa:bb:0c:dd:ee:ff ".
    { apply (it_field "in_port" "IN_PORT" (T "3") 3); [member|]. left. dec. }
    it "" "nw_src=10.0.0.0/8" ","%char "vlan_vid=0x1000/0x1000,dl_dst=aa:bb:0c:dd:ee:ff ".
    { apply (it_prefix4 "nw_src" "IPV4_SRC" (T "10.0.0.0") 0x0a000000 (T "8") 8); [member|discriminate| |dec|lia].
      apply (qt [T "10"; T "0"; T "0"; T "0"] [10; 0; 0; 0]); [reflexivity|]. repeat constructor; try lia; num. }
    it "" "vlan_vid=0x1000/0x1000" ","%char "dl_dst=aa:bb:0c:dd:ee:ff ".
    { apply (it_masked "vlan_vid" "VLAN_VID" (T "0x1000") 0x1000 (T "0x1000") 0x1000); [member|]. left. split; apply (nt_hex (T "1000")); num. }
    it "" "dl_dst=aa:bb:0c:dd:ee:ff" " "%char "".
    { apply (it_field "dl_dst" "ETH_DST" (T "aa:bb:0c:dd:ee:ff") 0xaabb0cddeeff); [member|]. right. left.
      apply (mt [T "aa"; T "bb"; T "0c"; T "dd"; T "ee"; T "ff"] [0xaa; 0xbb; 0x0c; 0xdd; 0xee; 0xff]); [reflexivity| |repeat constructor].
      repeat constructor; num. }
    apply its_nil. constructor.
  - pc "" "push_vlan:0x8100" " set_field:4101->vlan_vid,all,group:1,clear_actions,write_actions(dec_ttl,output:local),goto_table:7".
    { apply pt_act. apply (at_number _ "push_vlan" "PUSH_VLAN" (T "0x8100")); [member|]. apply (nt_hex (T "8100")). num. }
    pc " " "set_field:4101->vlan_vid" "all,group:1,clear_actions,write_actions(dec_ttl,output:local),goto_table:7".
    { apply pt_act. apply (at_field _ "vlan_vid" "VLAN_VID" (T "4101") 4101); [member|]. left. dec. }
    pc "" "all" "group:1,clear_actions,write_actions(dec_ttl,output:local),goto_table:7".
    { apply pt_act. apply (at_port _ (T "all")); [|discriminate]. apply (pt_name "all"). member. }
    pc "" "group:1" "clear_actions,write_actions(dec_ttl,output:local),goto_table:7".
    { apply pt_act. apply (at_group _ (T "1") 1); [dec|]. member. }
    pc "" "clear_actions" "write_actions(dec_ttl,output:local),goto_table:7".
    { apply pt_clear. }
    pc "" "write_actions(dec_ttl,output:local)" "goto_table:7".
    { apply (pt_write _ (T "dec_ttl,output:local")); [|vm_compute; intuition discriminate|vm_compute; intuition discriminate].
      exists [[("DEC_NW_TTL", VNone)]; [("OUTPUT", VInt 0xfffffffe)]]. split; [|reflexivity].
      pc "" "dec_ttl" "output:local".
      { apply (at_word _ "dec_ttl"). member. }
      apply last_piece. apply (at_output _ (T "local")). apply (pt_name "local"). member. }
    apply last_piece. apply (pt_goto _ (T "7")). dec.
Qed.
Example C76_ex : NoDup (map fst [(1, a_group)]) /\ flow_text [(1, a_group)] (T a_flow) a_items a_pieces /\
  (exists a, al_of (applied a_pieces) = Ok a) /\ (forall l, In (PWrite l) a_pieces -> exists x, as_of l = Ok x) /\ written a_pieces <> None.
Proof.
  split; [repeat constructor; cbn; tauto|]. split; [exact C76_ex_text|]. split; [eexists; vm_compute; reflexivity|]. split; [|discriminate].
  intros l H. repeat (destruct H as [H|H]; [try discriminate H|]); [|destruct H]. injection H as <-. eexists. vm_compute. reflexivity.
Qed.
(** what it reads *)
Example C76_ex_read : exists r' ru, rule_from_ovs [] [(1, a_group)] (T a_flow) = Ok (r', ru) /\
  priority ru = 100 /\ cookie ru = Some 0x2b /\ table ru = 2 /\ goto_table (inst ru) = Some 7 /\ clear_actions (inst ru) = true /\
  map (fun kv => (fst kv, fst (snd kv))) (m_items (rmatch ru)) =
    [("ETH_TYPE", (0x800, None)); ("IP_PROTO", (6, None)); ("IN_PORT", (3, None)); ("IPV4_SRC", (0x0a000000, Some 0xff000000));
     ("VLAN_VID", (0x1000, Some 0x1000)); ("ETH_DST", (0xaabb0cddeeff, None))] /\
  orig_order (apply_actions (inst ru)) = [("PUSH_VLAN", VInt 0x8100); ("SET_FIELD", VSet "VLAN_VID" 5); ("OUTPUT", VInt 0xfffffffc); ("GROUP", a_group)].
Proof. do 2 eexists. split; [vm_compute; reflexivity|]. repeat split. Qed.

(** *** What is read as something else *)
Definition read_match (s : string) : result (list (string * (Z * option Z))) :=
  do (r, c) <- rule_from_ovs registry_init [] (T s); Ok (map (fun kv => (fst kv, fst (snd kv))) (m_items (rmatch c))).
Definition read_inst (s : string) : result instructions := do (r, c) <- rule_from_ovs registry_init [] (T s); Ok (inst c).
(** The table of a resubmit has one digit; a longer one ends the reading of the flow, without an
    error: it is read as a drop. *)
Theorem C76_resubmit_refuted : read_inst "in_port=1,actions=resubmit(,10),output:1" = Ok inst_empty /\
  rmap goto_table (read_inst "in_port=1,actions=resubmit(,9),output:1") = Ok (Some 9).
Proof. vm_compute. auto. Qed.
(** So does any action that is not known. *)
Theorem C76_unknown_action_refuted : rmap apply_actions (read_inst "in_port=1,actions=enqueue:1:2,output:2") = Ok al_empty.
Proof. vm_compute. reflexivity. Qed.
(** The prefix of an IPv6 address with fewer than three colons, or of nd_target, is read as a mask
    (which the match then applies to the value). *)
Theorem C76_prefix_refuted : read_match "ipv6,ipv6_src=2001::/16,actions=drop" = Ok [("ETH_TYPE", (0x86dd, None)); ("IPV6_SRC", (0, Some 16))] /\
  read_match "ipv6,nd_target=2001:1:2::/48,actions=drop" = Ok [("ETH_TYPE", (0x86dd, None)); ("IPV6_ND_TARGET", (0, Some 48))].
Proof. split; vm_compute; reflexivity. Qed.
(** vlan_tci: the priority is the upper three bits of sixteen, read are the upper seven. *)
Theorem C76_vlan_tci_refuted : read_match "vlan_tci=0xf123/0xffff,actions=drop" = Ok [("VLAN_VID", (0x1123, None)); ("VLAN_PCP", (120, None))].
Proof. vm_compute. reflexivity. Qed.
(** The transport ports of UDP and SCTP flows are taken for those of TCP. *)
Theorem C76_ports_refuted : read_match "udp,tp_dst=53,actions=drop" = Ok [("ETH_TYPE", (0x800, None)); ("IP_PROTO", (17, None)); ("TCP_DST", (53, None))].
Proof. vm_compute. reflexivity. Qed.
(** in_port by name: the bytes of the name *)
Theorem C76_port_name_refuted : read_match "in_port=LOCAL,actions=drop" = Ok [("IN_PORT", (0x4c4f43414c, None))].
Proof. vm_compute. reflexivity. Qed.
(** mod_nw_tos has the DSCP in its upper six bits. *)
Theorem C76_tos_refuted : rmap (fun i => orig_order (apply_actions i)) (read_inst "ip,actions=mod_nw_tos:184") = Ok [("SET_FIELD", VSet "IP_DSCP" 184)].
Proof. vm_compute. reflexivity. Qed.
Print Assumptions C76_flow_read_partial.
Print Assumptions C76_resubmit_refuted.
Print Assumptions C76_unknown_action_refuted.
Print Assumptions C76_prefix_refuted.
Print Assumptions C76_vlan_tci_refuted.
Print Assumptions C76_ports_refuted.
Print Assumptions C76_port_name_refuted.
Print Assumptions C76_tos_refuted.

(** ** C77: whole files, with groups. Missing: the forms of group lines below. *)
Theorem C77_file_read_partial : forall r lines gs fs groups r' rules, lines <> [] ->
  file_lines lines gs fs -> groups_text [] gs groups -> flows_text r groups fs r' rules ->
  ruleset_from_ovs r (file_text lines) = Ok (r', rules).
Proof. exact file_read. Qed.
Theorem C77_group_read_partial : forall groups line n v, NoDup (map fst groups) -> group_desc groups line n v -> parse_group groups line = Ok (Some n, v).
Proof. exact group_read. Qed.
Definition a_group_line : string := "group_id=1,type=all,bucket=bucket_id:0,actions=output:1, bucket=bucket_id:1,actions=output:2".
Example C77_ex_group : group_desc [] (T a_group_line) 1 a_group.
Proof.
  exists (T "1"), "all", [(T ",", T "bucket_id:0,actions=output:1"); (T ", ", T "bucket_id:1,actions=output:2")], [[("OUTPUT", VInt 1)]; [("OUTPUT", VInt 2)]], [[("OUTPUT", VInt 1)]; [("OUTPUT", VInt 2)]].
  split; [vm_compute; reflexivity|]. split; [reflexivity|]. split; [dec|]. split; [member|]. split; [discriminate|].
  split; [repeat constructor; try discriminate; unfold separator; cbn; tauto|].
  assert (B : forall i o, In (i, o) [("0", 1); ("1", 2)] -> bucket_text [] (T ("bucket_id:" ++ i ++ ",actions=output:" ++ (if (o =? 1)%Z then "1" else "2"))%string) [("OUTPUT", VInt o)]).
  { intros i o H. destruct H as [H|[H|[]]]; injection H as <- <-.
    - apply (bt [] (T "bucket_id:0,") (T "output:1")); [apply (pa_more "bucket_id" (T "0") 0 []); [member|apply pt_number; dec|constructor]| |].
      + exists [[("OUTPUT", VInt 1)]]. split; [|reflexivity]. apply last_piece. apply (at_output [] (T "1")). apply pt_number. dec.
      + exists (T "output:"), "1"%char. split; [reflexivity|]. split; [vm_compute; lia|discriminate].
    - apply (bt [] (T "bucket_id:1,") (T "output:2")); [apply (pa_more "bucket_id" (T "1") 1 []); [member|apply pt_number; dec|constructor]| |].
      + exists [[("OUTPUT", VInt 2)]]. split; [|reflexivity]. apply last_piece. apply (at_output [] (T "2")). apply pt_number. dec.
      + exists (T "output:"), "2"%char. split; [reflexivity|]. split; [vm_compute; lia|discriminate]. }
  split; [constructor; [|constructor; [|constructor]]; [apply (B "0" 1)|apply (B "1" 2)]; cbn; auto|].
  repeat constructor; eexists; (split; [vm_compute; reflexivity|reflexivity]).
Qed.
Definition a_file : list text := [T "NXST_FLOW reply (xid=0x4):"; T " " ++ T a_flow ++ ["013"%char]; T " " ++ T a_group_line ++ ["013"%char]; []].
Example C77_ex : exists gs fs groups r' rules, file_lines a_file gs fs /\ groups_text [] gs groups /\ flows_text [] groups fs r' rules /\ List.length rules = 1%nat /\ List.length groups = 1%nat.
Proof.
  assert (NM : forall p s, contains p s = false -> ~ mentions p s).
  { intros p s C (a & b & E). rewrite (proj2 (FormatProofs.contains_spec p s)) in C; [discriminate|]. now exists a, b. }
  destruct C76_ex as (ND & F & (a & A) & W & N).
  assert (Wr : exists w, match written a_pieces with Some l => as_of l = Ok w | None => w = al_empty end) by (eexists; vm_compute; reflexivity). destruct Wr as (w & Wr).
  destruct (match_append_all [] match_new (fields_of a_items)) as [r' m] eqn:M.
  eexists [T a_group_line], [T a_flow], [(1, a_group)], r', [_]. split; [|split; [|split; [|split; reflexivity]]].
  - assert (Mg : margin (T " ")) by (repeat constructor; cbn; auto). assert (Mn : margin ["013"%char]) by (repeat constructor; cbn; auto).
    apply fl_other; [apply NM; vm_compute; reflexivity|apply NM; vm_compute; reflexivity|vm_compute; intuition discriminate|].
    apply (fl_flow (T " ") (T a_flow) ["013"%char]); [exact Mg|exact Mn| | | |].
    + apply (fl_group (T " ") (T a_group_line) ["013"%char]); [exact Mg|exact Mn| |do 3 eexists; exact C77_ex_group].
      apply fl_other; [apply NM; reflexivity|apply NM; reflexivity|intros []|constructor].
    + do 3 eexists. exact F.
    + exists "c"%char. eexists. split; [reflexivity|]. split; [vm_compute; lia|discriminate].
    + exists (removelast (T a_flow)), (last (T a_flow) " "%char). split; [vm_compute; reflexivity|]. split; [vm_compute; lia|vm_compute; discriminate].
  - eapply (gs_more [] _ 1 a_group); [exact C77_ex_group|intros []|constructor].
  - eapply fs_more; [|constructor]. exists a_items, a_pieces, a, w, m. repeat (split; [eassumption|]). reflexivity.
Qed.
(** Groups without buckets, groups that use later groups; buckets without "actions=" and unknown
    actions are read as empty buckets. *)
Definition read_groups (lines : list string) : result (list (Z * aval)) := groups_from (map T lines) [].
Theorem C77_no_bucket_refuted : read_groups ["group_id=1,type=all"] = Err UnboundLocalError.
Proof. vm_compute. reflexivity. Qed.
Theorem C77_forward_refuted : read_groups ["group_id=1,type=all,bucket=actions=group:2"; "group_id=2,type=all,bucket=actions=output:2"] = Err KeyError.
Proof. vm_compute. reflexivity. Qed.
Theorem C77_bare_bucket_refuted : read_groups ["group_id=1,type=all,bucket=output:1"] = Ok [(1, VGroup "all" [[]])] /\
  read_groups ["group_id=1,type=all,bucket=actions=OUTPUT:1"] = Ok [(1, VGroup "all" [[]])].
Proof. vm_compute. auto. Qed.
Print Assumptions C77_file_read_partial.
Print Assumptions C77_group_read_partial.
Print Assumptions C77_no_bucket_refuted.
Print Assumptions C77_forward_refuted.
Print Assumptions C77_bare_bucket_refuted.
