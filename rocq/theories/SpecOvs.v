(** The text of Open vSwitch flows, after ovs-fields(7), ovs-actions(7) and ovs-ofctl(8), as far
    as convert_ovs.py claims to read it. Independent of the regular expressions of the model. *)
From Verif Require Export Ovs SpecText.
Local Open Scope string_scope.
Local Open Scope list_scope.
Local Open Scope Z_scope.

(** ** Numbers and addresses *)
(** decimal without leading zeros, or hexadecimal after 0x *)
Inductive number_text : text -> Z -> Prop :=
| nt_dec s n : numeral 10 s n -> no_leading_zero s -> number_text s n
| nt_hex s n : numeral 16 s n -> number_text (T "0x" ++ s) n.
(** six pairs of hexadecimal digits *)
Inductive mac_text : text -> Z -> Prop :=
| mt l bs : List.length l = 6%nat -> Forall2 (numeral 16) l bs -> Forall (fun w => List.length w = 2%nat) l ->
    mac_text (separated ":" l) (weigh 256 bs).
(** four decimal numbers below 256 *)
Inductive quad_text : text -> Z -> Prop :=
| qt l ns : List.length l = 4%nat -> Forall2 (fun w n => numeral 10 w n /\ n < 256) l ns -> quad_text (separated "." l) (weigh 256 ns).
(** eight groups, or groups around "::" (not seven on one side: C64) *)
Definition group16 (w : text) (n : Z) : Prop := numeral 16 w n /\ n <= 0xffff.
Inductive ip6_text : text -> Z -> Prop :=
| i6_full l ns : List.length l = 8%nat -> Forall2 group16 l ns -> ip6_text (separated ":" l) (weigh 65536 ns)
| i6_short l r ns ms : Forall2 group16 l ns -> Forall2 group16 r ms ->
    (List.length l + List.length r <= 6 \/ (List.length l + List.length r = 7 /\ l <> [] /\ r <> []))%nat ->
    ip6_text (separated ":" l ++ T "::" ++ separated ":" r) (weigh 65536 (ns ++ repeat 0 (8 - List.length l - List.length r) ++ ms)).
Definition value_text (s : text) (n : Z) : Prop := number_text s n \/ mac_text s n \/ quad_text s n \/ ip6_text s n.
(** a port by number or by name *)
Definition port_names : list (string * Z) :=
  [("in_port", 0xfffffff8); ("table", 0xfffffff9); ("normal", 0xfffffffa); ("flood", 0xfffffffb); ("all", 0xfffffffc);
   ("controller", 0xfffffffd); ("local", 0xfffffffe); ("any", 0xffffffff)].
Inductive port_text : text -> Z -> Prop :=
| pt_number s n : number_text s n -> port_text s n
| pt_name s n : In (s, n) port_names -> port_text (T s) n.

(** The names of the fields and the OpenFlow fields they stand for. Not here: the names whose
    meaning depends on the rest of the flow (tp_src, tp_dst, nw_tos, the VLAN names of OpenFlow
    1.0). *)
Definition field_names : list (string * string) :=
  [("in_port", "IN_PORT"); ("in_port_oxm", "IN_PORT"); ("metadata", "METADATA"); ("tun_id", "TUNNEL_ID"); ("tunnel_id", "TUNNEL_ID");
   ("eth_dst", "ETH_DST"); ("dl_dst", "ETH_DST"); ("eth_src", "ETH_SRC"); ("dl_src", "ETH_SRC"); ("eth_type", "ETH_TYPE"); ("dl_type", "ETH_TYPE");
   ("vlan_vid", "VLAN_VID"); ("vlan_pcp", "VLAN_PCP"); ("dl_vlan_pcp", "VLAN_PCP");
   ("ip_dscp", "IP_DSCP"); ("ip_ecn", "IP_ECN"); ("nw_ecn", "IP_ECN"); ("ip_proto", "IP_PROTO"); ("nw_proto", "IP_PROTO");
   ("ip_src", "IPV4_SRC"); ("nw_src", "IPV4_SRC"); ("ip_dst", "IPV4_DST"); ("nw_dst", "IPV4_DST");
   ("tcp_src", "TCP_SRC"); ("tcp_dst", "TCP_DST"); ("udp_src", "UDP_SRC"); ("udp_dst", "UDP_DST"); ("sctp_src", "SCTP_SRC"); ("sctp_dst", "SCTP_DST");
   ("icmp_type", "ICMPV4_TYPE"); ("icmp_code", "ICMPV4_CODE"); ("icmpv6_type", "ICMPV6_TYPE"); ("icmpv6_code", "ICMPV6_CODE");
   ("arp_op", "ARP_OP"); ("arp_spa", "ARP_SPA"); ("arp_tpa", "ARP_TPA"); ("arp_sha", "ARP_SHA"); ("arp_tha", "ARP_THA");
   ("ipv6_src", "IPV6_SRC"); ("ipv6_dst", "IPV6_DST"); ("ipv6_label", "IPV6_FLABEL");
   ("nd_target", "IPV6_ND_TARGET"); ("nd_sll", "IPV6_ND_SLL"); ("nd_tll", "IPV6_ND_TLL");
   ("mpls_label", "MPLS_LABEL"); ("mpls_tc", "MPLS_TC"); ("mpls_bos", "MPLS_BOS")].

(** ** Actions *)
Definition plain_words : list (string * list action) :=
  [("drop", []); ("pop_vlan", [("POP_VLAN", VNone)]); ("strip_vlan", [("POP_VLAN", VNone)]); ("dec_ttl", [("DEC_NW_TTL", VNone)]);
   ("dec_mpls_ttl", [("DEC_MPLS_TTL", VNone)]); ("controller", [("OUTPUT", VInt 0xfffffffd)])].
Definition number_words : list (string * string) :=
  [("push_vlan", "PUSH_VLAN"); ("push_mpls", "PUSH_MPLS"); ("pop_mpls", "POP_MPLS"); ("set_queue", "SET_QUEUE");
   ("mod_nw_ttl", "SET_NW_TTL"); ("set_nw_ttl", "SET_NW_TTL"); ("set_mpls_ttl", "SET_MPLS_TTL")].
Definition bracket_words : list (string * string) :=
  [("mod_nw_ttl", "SET_NW_TTL"); ("set_nw_ttl", "SET_NW_TTL"); ("set_mpls_ttl", "SET_MPLS_TTL")].
Definition set_words : list (string * string) :=
  [("mod_dl_dst", "ETH_DST"); ("mod_dl_src", "ETH_SRC"); ("mod_nw_dst", "IPV4_DST"); ("mod_nw_src", "IPV4_SRC"); ("mod_nw_ecn", "IP_ECN");
   ("mod_tp_dst", "TCP_DST"); ("mod_tp_src", "TCP_SRC")].
Definition ttl_names : list (string * string) := [("nw_ttl", "SET_NW_TTL"); ("mpls_ttl", "SET_MPLS_TTL")].
(** [action_text groups s l]: the text of one action and the actions it stands for. A VLAN id is
    set without its CFI bit. *)
Inductive action_text (groups : list (Z * aval)) : text -> list action -> Prop :=
| at_word w l : In (w, l) plain_words -> action_text groups (T w) l
| at_controller s n : number_text s n -> action_text groups (T "controller:" ++ s) [("OUTPUT", VInt 0xfffffffd)]
| at_number w a s n : In (w, a) number_words -> number_text s n -> action_text groups (T w ++ T ":" ++ s) [(a, VInt n)]
| at_bracket w a s n : In (w, a) bracket_words -> number_text s n -> action_text groups (T w ++ T "(" ++ s ++ T ")") [(a, VInt n)]
| at_output s p : port_text s p -> action_text groups (T "output:" ++ s) [("OUTPUT", VInt p)]
| at_output_len s p s' n : port_text s p -> number_text s' n ->
    action_text groups (T "output(port=" ++ s ++ T ",max_len=" ++ s' ++ T ")") [("OUTPUT", VInt p)]
| at_port s p : port_text s p -> s <> T "in_port" -> action_text groups s [("OUTPUT", VInt p)]
| at_group s n g : number_text s n -> In (n, g) groups -> action_text groups (T "group:" ++ s) [("GROUP", g)]
| at_set w f s n : In (w, f) set_words -> value_text s n -> action_text groups (T w ++ T ":" ++ s) [("SET_FIELD", VSet f n)]
| at_field w f s n : In (w, f) field_names -> value_text s n ->
    action_text groups (T "set_field:" ++ s ++ T "->" ++ T w) [("SET_FIELD", VSet f (if String.eqb f "VLAN_VID" then n mod 4096 else n))]
| at_ttl w a s n : In (w, a) ttl_names -> number_text s n -> action_text groups (T "set_field:" ++ s ++ T "->" ++ T w) [(a, VInt n)].

(** ** Lists with commas, with blanks and tabs around the parts *)
Definition gap (s : text) : Prop := Forall (fun c => In c [" "; "009"]%char) s.
Inductive listed {X} (P : text -> X -> Prop) : text -> list X -> Prop :=
| li_last a w b x : gap a -> gap b -> P w x -> listed P (a ++ w ++ b) [x]
| li_more a w b x s l : gap a -> gap b -> P w x -> listed P s l -> listed P (a ++ w ++ b ++ T "," ++ s) (x :: l).
Definition actions_text groups (s : text) (l : list action) : Prop := exists ls, listed (action_text groups) s ls /\ l = List.concat ls.

(** ** Instructions: what follows "actions=" *)
Inductive piece :=
| PAct (l : list action)
| PClear
| PWrite (l : list action)
| PMetadata (v : Z) (m : option Z)
| PGoto (t : Z).
Inductive piece_text (groups : list (Z * aval)) : text -> piece -> Prop :=
| pt_act s l : action_text groups s l -> piece_text groups s (PAct l)
| pt_clear : piece_text groups (T "clear_actions") PClear
(* no further brackets inside *)
| pt_write s l : actions_text groups s l -> ~ In "("%char s -> ~ In ")"%char s -> piece_text groups (T "write_actions(" ++ s ++ T ")") (PWrite l)
| pt_metadata s v : number_text s v -> piece_text groups (T "write_metadata:" ++ s) (PMetadata v None)
| pt_metadata_mask s v s' m : number_text s v -> number_text s' m -> piece_text groups (T "write_metadata:" ++ s ++ T "/" ++ s') (PMetadata v (Some m))
| pt_goto s n : number_text s n -> piece_text groups (T "goto_table:" ++ s) (PGoto n)
(* one digit *)
| pt_resubmit c n : numeral 10 [c] n -> piece_text groups (T "resubmit(," ++ [c] ++ T ")") (PGoto n).
Definition pieces_text groups (s : text) (l : list piece) : Prop := (s = [] /\ l = []) \/ listed (piece_text groups) s l.
(** the last one counts *)
Definition last_of {X Y} (f : X -> option Y) (l : list X) (o : option Y) : option Y :=
  fold_left (fun o x => match f x with Some y => Some y | None => o end) l o.
Definition applied (l : list piece) : list action := flat_map (fun p => match p with PAct a => a | _ => [] end) l.
Definition written (l : list piece) : option (list action) := last_of (fun p => match p with PWrite a => Some a | _ => None end) l None.
Definition metadata_of (l : list piece) : option (Z * option Z) := last_of (fun p => match p with PMetadata v m => Some (v, m) | _ => None end) l None.
Definition goto_of (l : list piece) : option Z := last_of (fun p => match p with PGoto t => Some t | _ => None end) l None.
Definition cleared (l : list piece) : bool := existsb (fun p => match p with PClear => true | _ => false end) l.

(** ** Flows *)
Inductive item :=
| ITable (n : Z)
| IPriority (n : Z)
| ICookie (n : Z)
| IFields (l : list (string * (Z * option Z)))
| INothing.
Definition short_names : list (string * list (string * Z)) :=
  [("ip", [("ETH_TYPE", 0x0800)]); ("ipv6", [("ETH_TYPE", 0x86dd)]); ("arp", [("ETH_TYPE", 0x0806)]); ("rarp", [("ETH_TYPE", 0x8035)]);
   ("mpls", [("ETH_TYPE", 0x8847)]); ("mplsm", [("ETH_TYPE", 0x8848)]);
   ("icmp", [("ETH_TYPE", 0x0800); ("IP_PROTO", 1)]); ("icmp6", [("ETH_TYPE", 0x86dd); ("IP_PROTO", 58)]);
   ("tcp", [("ETH_TYPE", 0x0800); ("IP_PROTO", 6)]); ("tcp6", [("ETH_TYPE", 0x86dd); ("IP_PROTO", 6)]);
   ("udp", [("ETH_TYPE", 0x0800); ("IP_PROTO", 17)]); ("udp6", [("ETH_TYPE", 0x86dd); ("IP_PROTO", 17)]);
   ("sctp", [("ETH_TYPE", 0x0800); ("IP_PROTO", 132)]); ("sctp6", [("ETH_TYPE", 0x86dd); ("IP_PROTO", 132)])].
(** counters and timeouts of dump-flows *)
Definition dump_names : list string := ["duration"; "n_packets"; "n_bytes"; "idle_timeout"; "hard_timeout"; "idle_age"; "importance"].
(** the value and the mask of a field; a VLAN id has thirteen bits *)
Definition kept (f : string) (n : Z) : Z := if String.eqb f "VLAN_VID" then n mod 8192 else n.
(** a mask written like the value *)
Definition alike (s : text) (v : Z) (s' : text) (m : Z) : Prop :=
  (number_text s v /\ number_text s' m) \/ (mac_text s v /\ mac_text s' m) \/ (quad_text s v /\ quad_text s' m) \/ (ip6_text s v /\ ip6_text s' m).
Inductive item_text : text -> item -> Prop :=
| it_table s n : number_text s n -> item_text (T "table=" ++ s) (ITable n)
| it_priority s n : number_text s n -> item_text (T "priority=" ++ s) (IPriority n)
| it_cookie s n : number_text s n -> item_text (T "cookie=" ++ s) (ICookie n)
| it_dump w s : In w dump_names -> Forall (fun c => ~ In c ["="; "/"; ","; " "; "009"]%char /\ (33 <= nat_of_ascii c <= 126)%nat) s ->
    item_text (T w ++ T "=" ++ s) INothing
| it_short w l : In (w, l) short_names -> item_text (T w) (IFields (map (fun fv => (fst fv, (snd fv, None))) l))
| it_field w f s v : In (w, f) field_names -> value_text s v -> item_text (T w ++ T "=" ++ s) (IFields [(f, (kept f v, None))])
| it_masked w f s v s' m : In (w, f) field_names -> alike s v s' m ->
    item_text (T w ++ T "=" ++ s ++ T "/" ++ s') (IFields [(f, (kept f v, Some (kept f m)))])
(* the first k bits *)
| it_prefix4 w f s v s' k : In (w, f) field_names -> f <> "VLAN_VID" -> quad_text s v -> number_text s' k -> k <= 32 ->
    item_text (T w ++ T "=" ++ s ++ T "/" ++ s') (IFields [(f, (v, Some (2 ^ 32 - 2 ^ (32 - k))))])
(* with three colons or more, see C76 *)
| it_prefix6 w f s v s' k : In (w, f) [("ipv6_src", "IPV6_SRC"); ("ipv6_dst", "IPV6_DST")] -> ip6_text s v -> (3 <= count_occ ascii_dec s ":"%char)%nat ->
    number_text s' k -> k <= 128 ->
    item_text (T w ++ T "=" ++ s ++ T "/" ++ s') (IFields [(f, (v, Some (2 ^ 128 - 2 ^ (128 - k))))])
(* OpenFlow 1.0: present, or 0xffff for none *)
| it_dl_vlan s n : number_text s n -> n < 4096 -> item_text (T "dl_vlan=" ++ s) (IFields [("VLAN_VID", (n + 4096, None))])
| it_no_vlan s : number_text s 0xffff -> item_text (T "dl_vlan=" ++ s) (IFields [("VLAN_VID", (0, None))]).
(** items separated by commas, blanks and tabs, in any number *)
Definition separator (c : ascii) : Prop := In c [","; " "; "009"]%char.
Inductive items_text : text -> list item -> Prop :=
| its_nil s : Forall separator s -> items_text s []
| its_last a w i : Forall separator a -> item_text w i -> items_text (a ++ w) [i]
| its_more a w c i s l : Forall separator a -> item_text w i -> separator c -> items_text s l -> items_text (a ++ w ++ c :: s) (i :: l).
Definition fields_of (l : list item) : list (string * (Z * option Z)) := flat_map (fun i => match i with IFields fs => fs | _ => [] end) l.
Definition table_of (l : list item) : option Z := last_of (fun i => match i with ITable n => Some n | _ => None end) l None.
Definition priority_of (l : list item) : option Z := last_of (fun i => match i with IPriority n => Some n | _ => None end) l None.
Definition cookie_of (l : list item) : option Z := last_of (fun i => match i with ICookie n => Some n | _ => None end) l None.
Definition or_else {X} (o : option X) (x : X) : X := match o with Some y => y | None => x end.
(** the rule of a flow: priority 32768 and table 0 unless given *)
Definition flow_text groups (line : text) (its : list item) (ps : list piece) : Prop :=
  exists before after, line = before ++ T "actions=" ++ after /\ items_text before its /\
    pieces_text groups (map lower after) ps.

(** ** Groups and files *)
Definition group_types : list string := ["all"; "select"; "indirect"; "ff"; "fast_failover"].
Definition bucket_params : list string := ["bucket_id"; "weight"; "watch_port"; "watch_group"].
Inductive params_text : text -> Prop :=
| pa_none : params_text []
| pa_more w s n t : In w bucket_params -> port_text s n -> params_text t -> params_text (T w ++ T ":" ++ s ++ T "," ++ t).
Definition visible (c : ascii) : Prop := (33 <= nat_of_ascii c <= 126)%nat /\ c <> ","%char.
Definition visible_end (s : text) : Prop := exists t c, s = t ++ [c] /\ visible c.
Inductive bucket_text (groups : list (Z * aval)) : text -> list action -> Prop :=
| bt p s l : params_text p -> actions_text groups s l -> visible_end s -> bucket_text groups (p ++ T "actions=" ++ s) l.
(** a group, printed as dump-groups does; the actions of a bucket form an action set *)
Definition group_desc groups (line : text) (n : Z) (v : aval) : Prop := exists s ty (bts : list (text * text)) acts bs,
  line = T "group_id=" ++ s ++ T ",type=" ++ T ty ++ List.concat (map (fun sb => fst sb ++ T "bucket=" ++ snd sb) bts) /\
  v = VGroup ty bs /\ number_text s n /\ In ty group_types /\ bts <> [] /\ Forall (fun sb => fst sb <> [] /\ Forall separator (fst sb)) bts /\
  Forall2 (bucket_text groups) (map snd bts) acts /\ Forall2 (fun l b => exists w, as_of l = Ok w /\ b = al_iter w) acts bs.
(** a group may use the groups above it *)
Inductive groups_text : list (Z * aval) -> list text -> list (Z * aval) -> Prop :=
| gs_nil g : groups_text g [] g
| gs_more g line n v lines g' : group_desc g line n v -> ~ In n (map fst g) -> groups_text (g ++ [(n, v)]) lines g' -> groups_text g (line :: lines) g'.
(** the rule that a flow describes, with the registry of fields before and after *)
Definition flow_rule (r : registry) groups (line : text) (r' : registry) (ru : core) : Prop := exists its ps a w m,
  flow_text groups line its ps /\ al_of (applied ps) = Ok a /\ (forall l, In (PWrite l) ps -> exists x, as_of l = Ok x) /\
  match written ps with Some l => as_of l = Ok w | None => w = al_empty end /\ match_append_all r match_new (fields_of its) = (r', m) /\
  ru = mkCore (or_else (priority_of its) 32768) (cookie_of its) m (mkInst (goto_of ps) a w (metadata_of ps) (cleared ps) None) (or_else (table_of its) 0).
Inductive flows_text : registry -> list (Z * aval) -> list text -> registry -> list core -> Prop :=
| fs_nil r g : flows_text r g [] r []
| fs_more r g line r1 ru lines r2 l : flow_rule r g line r1 ru -> flows_text r1 g lines r2 l -> flows_text r g (line :: lines) r2 (ru :: l).
(** the lines of a file: groups, flows and others, in any order, with any margins *)
Definition margin (s : text) : Prop := Forall (fun c => In c [" "; "009"; "013"]%char) s.
Definition mentions (p s : text) : Prop := exists a b, s = a ++ p ++ b.
Definition visible_start (s : text) : Prop := exists c t, s = c :: t /\ visible c.
Inductive file_lines : list text -> list text -> list text -> Prop :=
| fl_nil : file_lines [] [] []
| fl_group a line b lines gs fs : margin a -> margin b -> file_lines lines gs fs -> (exists g n v, group_desc g line n v) ->
    file_lines ((a ++ line ++ b) :: lines) (line :: gs) fs
| fl_flow a line b lines gs fs : margin a -> margin b -> file_lines lines gs fs -> (exists g its ps, flow_text g line its ps) -> visible_start line -> visible_end line ->
    file_lines ((a ++ line ++ b) :: lines) gs (line :: fs)
| fl_other s lines gs fs : ~ mentions (T "group_id=") s -> ~ mentions (T "actions=") s -> ~ In newline s -> file_lines lines gs fs -> file_lines (s :: lines) gs fs.
Definition file_text (lines : list text) : text := separated newline lines.

(** ** What can be written and read back *)
(** fields and their widths. Not here: the IPv6 addresses (C55) and IPV6_FLABEL, IN_PHY_PORT,
    PBB_ISID, IPV6_EXTHDR, which are not written. *)
Definition written_fields : list (string * Z) :=
  [("IN_PORT", 32); ("METADATA", 64); ("ETH_DST", 48); ("ETH_SRC", 48); ("ETH_TYPE", 16); ("VLAN_VID", 13); ("VLAN_PCP", 3);
   ("IP_DSCP", 6); ("IP_ECN", 2); ("IP_PROTO", 8); ("IPV4_SRC", 32); ("IPV4_DST", 32); ("TCP_SRC", 16); ("TCP_DST", 16);
   ("UDP_SRC", 16); ("UDP_DST", 16); ("SCTP_SRC", 16); ("SCTP_DST", 16); ("ICMPV4_TYPE", 8); ("ICMPV4_CODE", 8);
   ("ARP_OP", 16); ("ARP_SPA", 32); ("ARP_TPA", 32); ("ARP_SHA", 48); ("ARP_THA", 48); ("ICMPV6_TYPE", 8); ("ICMPV6_CODE", 8);
   ("IPV6_ND_SLL", 48); ("IPV6_ND_TLL", 48); ("MPLS_LABEL", 20); ("MPLS_TC", 3); ("MPLS_BOS", 1); ("TUNNEL_ID", 64)].
Definition fits_field (f : string) (v : Z) : Prop := exists w, In (f, w) written_fields /\ 0 <= v < 2 ^ w.
Definition writable_field (kv : string * (Z * option Z * Z)) : Prop :=
  let '(f, (v, mk, _)) := kv in fits_field f v /\ match mk with None => True | Some m => fits_field f m end.
Definition writable_action (a : action) : Prop :=
  let '(n, v) := a in
  (In n ["DEC_MPLS_TTL"; "POP_VLAN"; "DEC_NW_TTL"] /\ v = VNone) \/
  (In n ["OUTPUT"; "SET_MPLS_TTL"; "PUSH_VLAN"; "PUSH_MPLS"; "POP_MPLS"; "SET_QUEUE"; "SET_NW_TTL"] /\ exists k, v = VInt k /\ 0 <= k) \/
  (n = "SET_FIELD" /\ exists f k, v = VSet f k /\ fits_field f k /\ (f = "VLAN_VID" -> k < 4096)).
Definition natural (o : option Z) : Prop := match o with None => True | Some n => 0 <= n end.
(** a rule built from such fields and actions, with a cookie and without a meter *)
Definition writable (ru : core) : Prop := exists items xs ws,
  match_append_all registry_init match_new items = (registry_init, rmatch ru) /\ Forall writable_field (m_items (rmatch ru)) /\
  al_of xs = Ok (apply_actions (inst ru)) /\ as_of ws = Ok (write_actions (inst ru)) /\
  Forall writable_action xs /\ Forall writable_action ws /\
  (exists c, cookie ru = Some c /\ 0 <= c) /\ 0 <= priority ru /\ 0 <= table ru /\ natural (goto_table (inst ru)) /\
  match write_metadata (inst ru) with None => True | Some (v, m) => 0 <= v /\ natural m end /\ meter (inst ru) = None.
(** a rule made by the operations that fill matches and lists of actions *)
Definition made (ru : core) : Prop := exists items xs ws,
  match_append_all registry_init match_new items = (registry_init, rmatch ru) /\
  al_of xs = Ok (apply_actions (inst ru)) /\ as_of ws = Ok (write_actions (inst ru)).
