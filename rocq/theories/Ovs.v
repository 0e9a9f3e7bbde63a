(** Conversion of rules to and from the text of Open vSwitch (ovs-ofctl).
    Models ofequivalence/convert_ovs.py. A str is a list of ASCII characters; log messages are
    left out. Where Python would put a str or None into a match ("in_port=" or "in_port" alone)
    the model raises TypeError, as every later use of the match would. *)
From Verif Require Export Ryu.
Local Open Scope string_scope.
Local Open Scope list_scope.
Local Open Scope Z_scope.

(** ** Regular expressions
    The part of Python's [re] that the file uses. A backtracking matcher, leftmost and greedy,
    with the matcher's continuation [k]. Groups are numbered in the order in which they are
    written; none of the patterns nests them. *)
Inductive re :=
| Eps
| Cls (f : ascii -> bool)      (* one character *)
| Star (f : ascii -> bool)     (* [..]* , greedy *)
| Seq (a b : re)
| Alt (a b : re)               (* (?:a|b), no groups inside *)
| Opt (a : re)                 (* (?:a)? , greedy *)
| Rep (a : re)                 (* (?:a)* , greedy; an empty round ends it *)
| Cap (a : re)                 (* (a) *)
| End.                         (* $ *)
Fixpoint groups_in (r : re) : nat :=
  match r with
  | Eps | Cls _ | Star _ | End => 0
  | Seq a b | Alt a b => groups_in a + groups_in b
  | Opt a | Rep a => groups_in a
  | Cap a => S (groups_in a)
  end.
Notation caps := (list (option text)).
Definition newline : ascii := chr 10.
Fixpoint run (r : re) (s : text) (c : caps) (k : text -> caps -> option (text * caps)) {struct r} : option (text * caps) :=
  match r with
  | Eps => k s c
  | Cls f => match s with x :: t => if f x then k t c else None | [] => None end
  | Star f =>
    (fix go s := match s with
                 | [] => k [] c
                 | x :: t => if f x then match go t with Some r => Some r | None => k s c end else k s c
                 end) s
  | Seq a b => run a s c (fun s' c' => run b s' c' k)
  | Alt a b => match run a s c k with Some r => Some r | None => run b s c k end
  | Opt a => match run a s c k with Some r => Some r | None => k s (c ++ repeat None (groups_in a)) end
  | Rep a =>
    (fix rep n s c := match n with
       | O => k s c
       | S n => match run a s c (fun s' c' => if Nat.ltb (List.length s') (List.length s) then rep n s' c' else None) with
                | Some r => Some r
                | None => k s c
                end
       end) (List.length s) s c
  | Cap a => run a s c (fun s' c' => k s' (c' ++ [Some (firstn (List.length s - List.length s') s)]))
  | End => match s with
           | [] => k s c
           | [x] => if Ascii.eqb x newline then k s c else None
           | _ => None
           end
  end.
(** re.match: the text after the match and the groups *)
Definition re_match (r : re) (s : text) : option (text * caps) := run r s [] (fun s' c => Some (s', c)).
(** re.split for a pattern without groups that matches no empty text *)
Fixpoint re_split_from (fuel : nat) (r : re) (cur s : text) : list text :=
  match fuel with
  | O => [cur]
  | S n =>
    match re_match r s with
    | Some (rest, _) => cur :: re_split_from n r [] rest
    | None => match s with [] => [cur] | x :: t => re_split_from n r (cur ++ [x]) t end
    end
  end.
Definition re_split (r : re) (s : text) : list text := re_split_from (S (List.length s)) r [] s.

(** \s for str, among the characters below 256; str.strip() removes the same ones *)
Definition re_space (c : ascii) : bool :=
  ((9 <=? ord c) && (ord c <=? 13)) || ((28 <=? ord c) && (ord c <=? 32)) || (ord c =? 133) || (ord c =? 160).
Definition one_of (l : string) (c : ascii) : bool := existsb (Ascii.eqb c) (T l).
Fixpoint drop_re_space (s : text) : text :=
  match s with [] => [] | c :: t => if re_space c then drop_re_space t else s end.
Definition str_strip (s : text) : text := rev (drop_re_space (rev (drop_re_space s))).
Fixpoint Word (t : text) : re := match t with [] => Eps | c :: t => Seq (Cls (Ascii.eqb c)) (Word t) end.
Definition W (s : string) : re := Word (T s).
Notation "a ;; b" := (Seq a b) (at level 60, right associativity).
Definition Plus (f : ascii -> bool) : re := Cls f ;; Star f.

(** convert_ovs.py:154-161 _match_token: white space, the expression, white space, a comma or the
    end, and the rest of the line as a group *)
Definition token (expr : re) : re :=
  Star re_space ;; expr ;; Star re_space ;; Alt (W ",") End ;; Cap (Star (fun c => negb (Ascii.eqb c newline))).
Definition match_token (expr : re) (s : text) : option caps := option_map snd (re_match (token expr) s).

(** ** Names *)
(** convert_ovs.py:59-97 FIELD_TO_OVS *)
Definition FIELD_TO_OVS : list (string * string) :=
  [("IN_PORT", "in_port"); ("METADATA", "metadata"); ("ETH_DST", "eth_dst"); ("ETH_SRC", "eth_src");
   ("ETH_TYPE", "eth_type"); ("VLAN_VID", "vlan_vid"); ("VLAN_PCP", "vlan_pcp"); ("IP_DSCP", "ip_dscp");
   ("IP_ECN", "ip_ecn"); ("IP_PROTO", "ip_proto"); ("IPV4_SRC", "ip_src"); ("IPV4_DST", "ip_dst");
   ("TCP_SRC", "tcp_src"); ("TCP_DST", "tcp_dst"); ("UDP_SRC", "udp_src"); ("UDP_DST", "udp_dst");
   ("SCTP_SRC", "sctp_src"); ("SCTP_DST", "sctp_dst"); ("ICMPV4_TYPE", "icmp_type"); ("ICMPV4_CODE", "icmp_code");
   ("ARP_OP", "arp_op"); ("ARP_SPA", "arp_spa"); ("ARP_TPA", "arp_tpa"); ("ARP_SHA", "arp_sha");
   ("ARP_THA", "arp_tha"); ("IPV6_SRC", "ipv6_src"); ("IPV6_DST", "ipv6_dst"); ("IPV6_FLABAL", "ipv6_label");
   ("ICMPV6_TYPE", "icmpv6_type"); ("ICMPV6_CODE", "icmpv6_code"); ("IPV6_ND_TARGET", "nd_target");
   ("IPV6_ND_SLL", "nd_sll"); ("IPV6_ND_TLL", "nd_tll"); ("MPLS_LABEL", "mpls_label"); ("MPLS_TC", "mpls_tc");
   ("MPLS_BOS", "mpls_bos"); ("TUNNEL_ID", "tunnel_id")].
(** convert_ovs.py:100-134 _parse_field_name *)
Definition akas : list (string * string) :=
  [("in_port_oxm", "in_port"); ("dl_src", "eth_src"); ("dl_dst", "eth_dst"); ("dl_type", "eth_type");
   ("dl_vlan_pcp", "vlan_pcp"); ("nw_ecn", "ip_ecn"); ("nw_proto", "ip_proto"); ("nw_src", "ipv4_src");
   ("nw_dst", "ipv4_dst"); ("ip_src", "ipv4_src"); ("ip_dst", "ipv4_dst"); ("tp_src", "tcp_src");
   ("tp_dst", "tcp_dst"); ("icmp_type", "icmpv4_type"); ("icmp_code", "icmpv4_code"); ("ipv6_label", "ipv6_flabel");
   ("nd_target", "ipv6_nd_target"); ("nd_sll", "ipv6_nd_sll"); ("nd_tll", "ipv6_nd_tll"); ("tun_id", "tunnel_id")].
Definition parse_field_name (key : string) : option string :=
  let key := match sassoc key akas with Some k => k | None => key end in
  match find_field oxm_fields (str_upper key) with Some _ => Some (str_upper key) | None => None end.
(** openflow_desc.py:196-236, the column format; the copies of a tunnel's fields (262-269) have
    the format of the field *)
Inductive fmt := Decimal | Hex | Ethernet | Ipv4 | Ipv6.
Definition formats : list (string * fmt) :=
  [("IN_PORT", Decimal); ("IN_PHY_PORT", Decimal); ("METADATA", Hex); ("ETH_DST", Ethernet); ("ETH_SRC", Ethernet);
   ("ETH_TYPE", Hex); ("VLAN_VID", Decimal); ("VLAN_PCP", Decimal); ("IP_DSCP", Decimal); ("IP_ECN", Decimal);
   ("IP_PROTO", Decimal); ("IPV4_SRC", Ipv4); ("IPV4_DST", Ipv4); ("TCP_SRC", Decimal); ("TCP_DST", Decimal);
   ("UDP_SRC", Decimal); ("UDP_DST", Decimal); ("SCTP_SRC", Decimal); ("SCTP_DST", Decimal); ("ICMPV4_TYPE", Decimal);
   ("ICMPV4_CODE", Decimal); ("ARP_OP", Decimal); ("ARP_SPA", Ipv4); ("ARP_TPA", Ipv4); ("ARP_SHA", Ethernet);
   ("ARP_THA", Ethernet); ("IPV6_SRC", Ipv6); ("IPV6_DST", Ipv6); ("IPV6_FLABEL", Hex); ("ICMPV6_TYPE", Decimal);
   ("ICMPV6_CODE", Decimal); ("IPV6_ND_TARGET", Ipv6); ("IPV6_ND_SLL", Ethernet); ("IPV6_ND_TLL", Ethernet);
   ("MPLS_LABEL", Decimal); ("MPLS_TC", Decimal); ("MPLS_BOS", Decimal); ("PBB_ISID", Decimal); ("TUNNEL_ID", Hex);
   ("IPV6_EXTHDR", Decimal)].
(** FORMATTERS[G_OF.oxm_fields[field].format] *)
Definition formatter (field : string) (value : Z) (mask : option Z) : result text :=
  match sassoc field formats with
  | None => Err KeyError
  | Some Decimal => format_decimal value mask
  | Some Hex => format_hex value mask
  | Some Ethernet => format_ethernet value mask
  | Some Ipv4 => format_ipv4 value mask
  | Some Ipv6 => format_ipv6 value mask
  end.
(** openflow_desc.py:401-411 *)
Definition ofp_port_no : list (string * Z) :=
  [("OFPP_MAX", 0xffffff00); ("OFPP_IN_PORT", 0xfffffff8); ("OFPP_TABLE", 0xfffffff9); ("OFPP_NORMAL", 0xfffffffa);
   ("OFPP_FLOOD", 0xfffffffb); ("OFPP_ALL", 0xfffffffc); ("OFPP_CONTROLLER", 0xfffffffd); ("OFPP_LOCAL", 0xfffffffe);
   ("OFPP_ANY", 0xffffffff)].
Definition S_ (t : text) : string := string_of_list_ascii t.
(** convert_ovs.py:137-151 _parse_port *)
Definition parse_port (port : text) : result Z :=
  match sassoc (("OFPP_" ++ str_upper (S_ port))%string) ofp_port_no with
  | Some p => Ok p
  | None => py_int 0 port
  end.

(** ** Reading actions *)
(** a dict of the groups read so far *)
Definition group_table : Type := list (Z * aval).
Fixpoint group_get (g : group_table) (n : Z) : result aval :=
  match g with [] => Err KeyError | (m, v) :: t => if m =? n then Ok v else group_get t n end.

Definition no_paren_comma (c : ascii) : bool := negb (one_of ",()" c).
Definition arg_char (c : ascii) : bool := negb (one_of ",()" c || re_space c).        (* [^,()\s] *)
Definition arg_slash (c : ascii) : bool := negb (one_of ",()/" c || re_space c).      (* [^,()/\s] *)
Definition no_paren (c : ascii) : bool := negb (one_of "()" c).                       (* [^()] *)
Definition name_char (c : ascii) : bool :=                                            (* [a-zA-Z_0-9] *)
  ((97 <=? ord c) && (ord c <=? 122)) || ((65 <=? ord c) && (ord c <=? 90)) || ((48 <=? ord c) && (ord c <=? 57)) || (ord c =? 95).
Definition alnum (c : ascii) : bool := name_char c && negb (ord c =? 95).             (* [a-zA-Z0-9] *)

(** convert_ovs.py:242-250 key_map, in the order in which it is written *)
Definition key_map : list (re * list action) :=
  [(W "drop", []);
   (W "pop_vlan", [("POP_VLAN", VNone)]);
   (W "strip_vlan", [("POP_VLAN", VNone)]);
   (W "dec_ttl", [("DEC_NW_TTL", VNone)]);
   (W "dec_mpls_ttl", [("DEC_MPLS_TTL", VNone)]);
   (Alt (W "controller") (Alt (W "controller:" ;; Plus no_paren_comma) (W "controller(" ;; Plus no_paren ;; W ")")),
    [("OUTPUT", VInt 0xfffffffd)])].
(** convert_ovs.py:268-313 key_value_map *)
Definition kv (key : string) (f : ascii -> bool) (plus : bool) (after : string) : re :=
  W key ;; Cap (if plus then Plus f else Star f) ;; W after.
Definition out_of (v : text) : result action := do p <- parse_port v; Ok ("OUTPUT", VInt p).
Definition int_act (n : string) (v : text) : result action := do p <- py_int 0 v; Ok (n, VInt p).
Definition num_act (n : string) (v : text) : result action := do p <- normalise_string v; Ok (n, VInt p).
Definition set_act (f : string) (v : text) : result action := do p <- normalise_string v; Ok ("SET_FIELD", VSet f p).
Definition key_value_map (groups : group_table) : list (re * (text -> result action)) :=
  [(kv "output:" arg_char false "", out_of);
   (W "output(" ;; Star re_space ;; W "port=" ;; Cap (Plus arg_char) ;; Star re_space ;; W "," ;; Star re_space ;;
      W "max_len=" ;; Plus no_paren_comma ;; W ")", out_of);
   (kv "group:" arg_char false "", fun v => do n <- py_int 0 v; do g <- group_get groups n; Ok ("GROUP", g));
   (kv "push_vlan:" arg_char false "", int_act "PUSH_VLAN");
   (kv "push_mpls:" arg_char false "", int_act "PUSH_MPLS");
   (kv "pop_mpls:" arg_char false "", int_act "POP_MPLS");
   (kv "set_queue:" arg_char true "", int_act "SET_QUEUE");
   (kv "mod_dl_dst:" arg_char true "", set_act "ETH_DST");
   (kv "mod_dl_src:" arg_char true "", set_act "ETH_SRC");
   (kv "mod_nw_dst:" arg_char true "", set_act "IPV4_DST");
   (kv "mod_nw_src:" arg_char true "", set_act "IPV4_SRC");
   (kv "mod_nw_tos:" arg_char true "", set_act "IP_DSCP");
   (kv "mod_nw_ecn:" arg_char true "", set_act "IP_ECN");
   (kv "mod_nw_ttl:" arg_char true "", num_act "SET_NW_TTL");
   (kv "mod_nw_ttl(" arg_char true ")", num_act "SET_NW_TTL");
   (kv "set_nw_ttl:" arg_char true "", num_act "SET_NW_TTL");
   (kv "set_nw_ttl(" arg_char true ")", num_act "SET_NW_TTL");
   (kv "set_mpls_ttl:" arg_char true "", num_act "SET_MPLS_TTL");
   (kv "set_mpls_ttl(" arg_char true ")", num_act "SET_MPLS_TTL");
   (kv "mod_tp_dst:" arg_char true "", set_act "TCP_DST");
   (kv "mod_tp_src:" arg_char true "", set_act "TCP_SRC")].
Fixpoint first_token {X} (l : list (re * X)) (s : text) : option (X * caps) :=
  match l with
  | [] => None
  | (r, x) :: t => match match_token r s with Some c => Some (x, c) | None => first_token t s end
  end.
Definition group_text (c : caps) (n : nat) : text := match nth_error c n with Some (Some t) => t | _ => [] end.
Definition last_group (c : caps) : text := match last c None with Some t => t | None => [] end.

(** 324-328: set_field:value[/mask]->dst and load:value->dst *)
Definition set_field_re : re :=
  W "set_field:" ;; Cap (Plus arg_slash) ;; Opt (Cap (W "/" ;; Plus no_paren_comma)) ;; W "->" ;; Cap (Plus name_char).
Definition load_re : re :=
  W "load:" ;; Cap (Plus arg_slash) ;; Cap Eps ;; W "->" ;; Cap (Plus name_char).
(** 329-342: one set_field; the action appended *)
Definition set_field_action (c : caps) : result action :=
  if match nth_error c 1 with Some (Some (_ :: _)) => true | _ => false end then Err AssertionError else
  do value <- normalise_string (group_text c 0);
  let dst := S_ (group_text c 2) in
  if String.eqb dst "mpls_ttl" then Ok ("SET_MPLS_TTL", VInt value)
  else if String.eqb dst "nw_ttl" then Ok ("SET_NW_TTL", VInt value)
  else
    let value := if String.eqb dst "vlan_vid" then Z.land value 0xfff else value in
    match parse_field_name dst with
    | None => Err AssertionError
    | Some f => Ok ("SET_FIELD", VSet f value)
    end.

Section FromOvs.
  Context (groups : group_table).

  (** convert_ovs.py:223-356 _parse_next_action: the remaining text and the actions; None when the
      next argument is no action. [append] is that of the type of [acts]. *)
  Definition parse_next_action (append : alist -> action -> result alist) (s : text) (acts : alist) : result (option (text * alist)) :=
    match first_token key_map s with
    | Some (l, c) => do acts' <- rfold append l acts; Ok (Some (last_group c, acts'))
    | None =>
      match first_token (key_value_map groups) s with
      | Some (f, c) => do a <- f (group_text c 0); do acts' <- append acts a; Ok (Some (last_group c, acts'))
      | None =>
        match match match_token set_field_re s with Some c => Some c | None => match_token load_re s end with
        | Some c => do a <- set_field_action c; do acts' <- append acts a; Ok (Some (last_group c, acts'))
        | None =>
          match match_token (Cap (Star alnum)) s with
          | None => Ok None
          | Some c =>
            (* the try block: also a ValueError of append would be caught, but append raises none *)
            match parse_port (group_text c 0) with
            | Err ValueError => Ok None
            | Err e => Err e
            | Ok p => do acts' <- append acts ("OUTPUT", VInt p); Ok (Some (last_group c, acts'))
            end
          end
        end
      end
    end.
  (** convert_ovs.py:359-382 actions_from_ovs. Every round but the last shortens the text. *)
  Fixpoint actions_loop (fuel : nat) (append : alist -> action -> result alist) (s : text) (acts : alist) : result alist :=
    match s with
    | [] => Ok acts
    | _ =>
      match fuel with
      | O => Err OutOfFuel
      | S n => do r <- parse_next_action append s acts;
               match r with
               | None => Ok acts
               | Some (s', acts') => actions_loop n append s' acts'
               end
      end
    end.
  Definition actions_from_ovs (append : alist -> action -> result alist) (s : text) : result alist :=
    actions_loop (List.length s) append s al_empty.

  (** 184: write_actions and, in brackets, one or more rounds of [nested] *)
  Definition nested : re := Star no_paren ;; Opt (W "(" ;; Plus no_paren ;; W ")") ;; Star no_paren.
  Definition write_actions_re : re := W "write_actions(" ;; Cap (nested ;; Rep nested) ;; W ")".
  (** 192: write_metadata:value[/mask] *)
  Definition write_metadata_re : re := W "write_metadata:" ;; Cap (Plus arg_slash) ;; Opt (W "/" ;; Cap (Plus arg_char)).
  Definition goto_re : re := W "goto_table:" ;; Cap (Plus arg_char).
  (** 210: resubmit(in_port,table) where the table is one character *)
  Definition resubmit_re : re := W "resubmit(" ;; Opt (W "in_port") ;; W "," ;; Cap (Cls arg_char) ;; W ")".
  (** convert_ovs.py:164-220 _parse_next_instruction *)
  Definition parse_next_instruction (s : text) (i : instructions) : result (option (text * instructions)) :=
    match match_token (W "clear_actions") s with
    | Some c => Ok (Some (last_group c, mkInst (goto_table i) (apply_actions i) (write_actions i) (write_metadata i) true (meter i)))
    | None =>
    match match_token write_actions_re s with
    | Some c => do w <- actions_from_ovs as_append (group_text c 0);
                Ok (Some (last_group c, mkInst (goto_table i) (apply_actions i) w (write_metadata i) (clear_actions i) (meter i)))
    | None =>
    match match_token write_metadata_re s with
    | Some c =>
      do mask <- match nth_error c 1 with Some (Some (x :: t)) => rmap Some (normalise_string (x :: t)) | _ => Ok None end;
      do value <- normalise_string (group_text c 0);
      Ok (Some (last_group c, mkInst (goto_table i) (apply_actions i) (write_actions i) (Some (value, mask)) (clear_actions i) (meter i)))
    | None =>
    match match match_token goto_re s with Some c => Some c | None => match_token resubmit_re s end with
    | Some c => do t <- normalise_string (group_text c 0);
                Ok (Some (last_group c, mkInst (Some t) (apply_actions i) (write_actions i) (write_metadata i) (clear_actions i) (meter i)))
    | None => Ok None
    end end end end.
  (** convert_ovs.py:385-418 instructions_from_ovs *)
  Fixpoint instructions_loop (fuel : nat) (s : text) (i : instructions) : result instructions :=
    match s with
    | [] => Ok i
    | _ =>
      match fuel with
      | O => Err OutOfFuel
      | S n =>
        do r <- parse_next_instruction s i;
        match r with
        | Some (s', i') => instructions_loop n s' i'
        | None =>
          do r <- parse_next_action al_append s (apply_actions i);
          match r with
          | Some (s', a) => instructions_loop n s' (mkInst (goto_table i) a (write_actions i) (write_metadata i) (clear_actions i) (meter i))
          | None => Ok i
          end
        end
      end
    end.
  Definition instructions_from_ovs (s : text) : result instructions :=
    instructions_loop (List.length s) (map lower s) inst_empty.
End FromOvs.

(** ** Reading matches *)
(** convert_ovs.py:38-53 SHORTHANDS *)
Definition SHORTHANDS : list (string * list (string * Z)) :=
  [("icmp", [("ETH_TYPE", 0x0800); ("IP_PROTO", 1)]); ("icmp6", [("ETH_TYPE", 0x86dd); ("IP_PROTO", 58)]);
   ("tcp", [("ETH_TYPE", 0x0800); ("IP_PROTO", 6)]); ("tcp6", [("ETH_TYPE", 0x86dd); ("IP_PROTO", 6)]);
   ("udp", [("ETH_TYPE", 0x0800); ("IP_PROTO", 17)]); ("udp6", [("ETH_TYPE", 0x86dd); ("IP_PROTO", 17)]);
   ("sctp", [("ETH_TYPE", 0x0800); ("IP_PROTO", 132)]); ("sctp6", [("ETH_TYPE", 0x86dd); ("IP_PROTO", 132)]);
   ("ip", [("ETH_TYPE", 0x0800)]); ("ipv6", [("ETH_TYPE", 0x86dd)]); ("arp", [("ETH_TYPE", 0x0806)]);
   ("rarp", [("ETH_TYPE", 0x8035)]); ("mpls", [("ETH_TYPE", 0x8847)]); ("mplsm", [("ETH_TYPE", 0x8848)])].
Definition count_char (x : ascii) (s : text) : nat := List.length (filter (Ascii.eqb x) s).
Definition has_char (x : ascii) (s : text) : bool := existsb (Ascii.eqb x) s.
Definition prefix_mask (width n : Z) : Z := Z.shiftl (2 ^ n - 1) (width - n).
(** None, a str that was not converted, a number *)
Inductive pyval := PNone | PStr | PInt (n : Z).
Definition as_given (o : option text) : pyval := match o with None => PNone | Some _ => PStr end.
(** 430-448: value and mask as numbers. [if value]: an empty text is not converted. 2**n of a
    negative n would be a float: TypeError. *)
Definition number_pair (key : string) (value mask : option text) : result (pyval * pyval) :=
  match value, mask with
  | Some ((_ :: _) as v), Some ((_ :: _) as m) =>
    do p4 <- (if Nat.eqb (count_char dot v) 3 && negb (has_char dot m) then do n <- normalise_string m; Ok (n <=? 32) else Ok false);
    if (p4 : bool) then
      do value <- normalise_string v; do n <- normalise_string m;
      if n <? 0 then Err TypeError else Ok (PInt value, PInt (prefix_mask 32 n))
    else
      do p6 <- (if Nat.ltb 2 (count_char colon v) && has_char "6"%char (T key) && negb (has_char colon m)
                then do n <- normalise_string m; Ok (n <=? 128) else Ok false);
      if (p6 : bool) then
        do value <- normalise_string v; do n <- normalise_string m;
        if n <? 0 then Err TypeError else Ok (PInt value, PInt (prefix_mask 128 n))
      else do value <- normalise_string v; do mask <- normalise_string m; Ok (PInt value, PInt mask)
  | Some ((_ :: _) as v), _ => do value <- normalise_string v; Ok (PInt value, as_given mask)
  | _, _ => Ok (as_given value, as_given mask)
  end.
(** convert_ovs.py:421-484 _add_match: None stands for False *)
Definition add_match (r : registry) (key : string) (value mask : option text) (m : Match) : result (option (registry * Match)) :=
  do (v, mk) <- number_pair key value mask;
  match sassoc key SHORTHANDS with
  | Some to_set =>
    match v, mk with
    | PNone, PNone => Ok (Some (fold_left (fun (rm : registry * Match) (fv : string * Z) => match_append (fst rm) (snd rm) (fst fv) (snd fv) None) to_set (r, m)))
    | _, _ => Err AssertionError
    end
  | None =>
    if String.eqb key "dl_vlan" then
      match mk, v with
      | PNone, PInt v => Ok (Some (match_append r m "VLAN_VID" (if v =? 0xffff then 0 else Z.lor (Z.land v 0x1fff) 0x1000) None))
      | PNone, _ => Err TypeError
      | _, _ => Err AssertionError
      end
    else if String.eqb key "vlan_vid" then
      match v, mk with
      | PInt v, PNone => Ok (Some (match_append r m "VLAN_VID" (Z.land v 0x1fff) None))
      | PInt v, PInt k => Ok (Some (match_append r m "VLAN_VID" (Z.land v 0x1fff) (Some (Z.land k 0x1fff))))
      | _, _ => Err TypeError
      end
    else if String.eqb key "vlan_tci" then
      match v, mk with
      | PInt v, PInt k =>
        let '(r1, m1) := if Z.land k 0x1fff =? 0 then (r, m) else match_append r m "VLAN_VID" (Z.land v 0x1fff) (Some (Z.land k 0x1fff)) in
        if Z.land k 0xe000 =? 0 then Ok (Some (r1, m1))
        else if Z.land k 0xe000 =? 0xe000 then Ok (Some (match_append r1 m1 "VLAN_PCP" (Z.shiftr v 9) None))
        else Err AssertionError
      | _, _ => Err TypeError
      end
    else
      match parse_field_name key with
      | None => Ok None
      | Some f =>
        match v, mk with
        | PInt v, PNone => Ok (Some (match_append r m f v None))
        | PInt v, PInt k => Ok (Some (match_append r m f v (Some k)))
        | _, _ => Err TypeError
        end
      end
  end.
(** [k, v = item.split("=")], then the mask after a slash: 584-591, 617-624. Two values are
    needed each time. *)
Definition key_value (item : text) : result (string * option text * option text) :=
  match split "="%char item with
  | [k] => Ok (S_ k, None, None)
  | [k; v] =>
    match split "/"%char v with
    | [v] => Ok (S_ k, Some v, None)
    | [v; m] => Ok (S_ k, Some v, Some m)
    | _ => Err ValueError
    end
  | _ => Err ValueError
  end.
(** re.split(r'[\s,]+', ...) *)
Definition sep_char (c : ascii) : bool := Ascii.eqb c "," || re_space c.
Definition items_of (s : text) : list text := filter (fun i => match i with [] => false | _ => true end) (re_split (Plus sep_char) (str_strip s)).
(** convert_ovs.py:569-593 match_from_ovs *)
Definition match_from_ovs (r : registry) (s : text) : result (registry * Match) :=
  rfold (fun (rm : registry * Match) item =>
    do (key, v, mk) <- key_value item;
    do o <- add_match (fst rm) key v mk (snd rm);
    Ok (match o with Some rm' => rm' | None => rm end)) (items_of s) (r, match_new).

(** ** Reading rules *)
(** the Rule being filled *)
Definition set_core (c : core) (p : Z) (ck : option Z) (m : Match) (t : Z) : core := mkCore p ck m (inst c) t.
(** convert_ovs.py:487-522 _parse_flow_argument. [assert not mask]: an empty mask passes. *)
Definition ignored_keys : list string :=
  ["duration"; "n_packets"; "n_bytes"; "idle_timeout"; "hard_timeout"; "importance"; "send_flow_rem";
   "no_packet_counts"; "no_byte_counts"; "reset_counts"; "idle_age"].
Definition plain_number (value mask : option text) : result Z :=
  match mask with
  | Some (_ :: _) => Err AssertionError
  | _ => match value with Some v => normalise_string v | None => Err TypeError end
  end.
Definition parse_flow_argument (r : registry) (key : string) (value mask : option text) (c : core) : result (registry * core) :=
  if str_in key ["table_id"; "table"] then
    do n <- plain_number value mask; Ok (r, set_core c (priority c) (cookie c) (rmatch c) n)
  else if String.eqb key "priority" then
    do n <- plain_number value mask; Ok (r, set_core c n (cookie c) (rmatch c) (table c))
  else if str_in key ignored_keys then Ok (r, c)
  else if str_in key ["out_group"; "out_port"; "check_overlap"] then Ok (r, c)
  else if String.eqb key "cookie" then
    do n <- plain_number value mask; Ok (r, set_core c (priority c) (Some n) (rmatch c) (table c))
  else
    do o <- add_match r key value mask (rmatch c);
    Ok (match o with Some (r', m) => (r', set_core c (priority c) (cookie c) m (table c)) | None => (r, c) end).
(** s.split("actions="): the separator has several characters *)
Fixpoint split_on_from (fuel : nat) (sep cur s : text) : list text :=
  match fuel with
  | O => [cur]
  | S n =>
    if is_prefix sep s then cur :: split_on_from n sep [] (skipn (List.length sep) s)
    else match s with [] => [cur] | x :: t => split_on_from n sep (cur ++ [x]) t end
  end.
Definition split_on (sep s : text) : list text := split_on_from (S (List.length s)) sep [] s.
(** convert_ovs.py:596-631 rule_from_ovs *)
Definition rule_from_ovs (r : registry) (groups : group_table) (line : text) : result (registry * core) :=
  match split_on (T "actions=") line with
  | [fields; actions] =>
    do (r', c) <- rfold (fun (rc : registry * core) item =>
        do (key, v, mk) <- key_value item; parse_flow_argument (fst rc) key v mk (snd rc))
      (items_of fields) (r, mkCore 0x8000 None match_new inst_empty 0);
    match actions with
    | [] => Ok (r', c)
    | _ => do i <- instructions_from_ovs groups actions; Ok (r', mkCore (priority c) (cookie c) (rmatch c) i (table c))
    end
  | _ => Err ValueError
  end.

(** ** Reading groups *)
(** convert_ovs.py:525-539 _parse_bucket: a Bucket is an ActionSet, kept as its actions *)
Definition parse_bucket (groups : group_table) (line : text) : result (list action) :=
  if contains (T "actions=") line then
    match split_on (T "actions=") line with
    | [_; actions] => rmap al_iter (actions_from_ovs groups as_append actions)
    | _ => Err ValueError
    end
  else Ok [].
(** convert_ovs.py:542-566 _parse_group: (number, group). type_ stays None without "type=": the
    empty string here. Without "bucket=" the variable buckets is unbound (line 563). *)
Definition bucket_re : re := Star sep_char ;; W "bucket=" ;; Star sep_char.
Definition parse_group (groups : group_table) (line : text) : result (option Z * aval) :=
  let has := contains (T "bucket=") line in
  let parts := if has then re_split bucket_re line else [line] in
  do (num, ty) <- rfold (fun (nt : option Z * string) item =>
      match split "="%char item with
      | [k; v] =>
        if String.eqb (S_ k) "group_id" then do n <- normalise_string v; Ok (Some n, snd nt)
        else if String.eqb (S_ k) "type" then Ok (fst nt, S_ v) else Ok nt
      | _ => Err ValueError
      end) (re_split (Plus sep_char) (str_strip (hd [] parts))) (None, "");
  if has then
    do bs <- rall (map (fun b => parse_bucket groups (str_strip b)) (tl parts));
    Ok (num, VGroup ty bs)
  else Err UnboundLocalError.
(** convert_ovs.py:767-813 ruleset_from_ovs: [lines] are the lines of the file. A group whose
    number is None cannot be: its line has "group_id=" (but "xgroup_id=" would do; TypeError here,
    Python stores it under None). *)
Definition is_group_line (s : text) : bool := contains (T "group_id=") s.
Definition is_rule_line (s : text) : bool := negb (is_group_line s) && contains (T "actions=") s.
Fixpoint groups_from (lines : list text) (g : group_table) : result group_table :=
  match lines with
  | [] => Ok g
  | l :: t =>
    do (num, v) <- parse_group g l;
    match num with
    | None => Err TypeError
    | Some n => if existsb (fun e => fst e =? n) g then Err AssertionError else groups_from t (g ++ [(n, v)])
    end
  end.
Fixpoint rules_from (r : registry) (g : group_table) (lines : list text) : result (registry * list core) :=
  match lines with
  | [] => Ok (r, [])
  | l :: t => do (r1, c) <- rule_from_ovs r g l; do (r2, cs) <- rules_from r1 g t; Ok (r2, c :: cs)
  end.
Definition ruleset_from_ovs (r : registry) (file : text) : result (registry * list core) :=
  let lines := map str_strip (split newline file) in
  do g <- groups_from (filter is_group_line lines) [];
  rules_from r g (filter is_rule_line lines).

(** ** Writing *)
(** str(value) of an int; the other values never occur with these actions (Python would print
    their repr) *)
Definition dec_of (v : aval) : result text := match v with VInt n => Ok (format_num 10 0 n) | _ => Err TypeError end.
Definition hex_of (v : aval) : result text := match v with VInt n => Ok (T "0x" ++ format_num 16 0 n) | _ => Err TypeError end.
(** convert_ovs.py:634-674 actions_to_ovs *)
Definition action_to_ovs (a : action) : result text :=
  let '(n, v) := a in
  if String.eqb n "OUTPUT" then do s <- dec_of v; Ok (T "output:" ++ s)
  else if String.eqb n "SET_MPLS_TTL" then do s <- dec_of v; Ok (T "set_mpls_ttl:" ++ s)
  else if String.eqb n "DEC_MPLS_TTL" then Ok (T "dec_mpls_ttl")
  else if String.eqb n "PUSH_VLAN" then do s <- hex_of v; Ok (T "push_vlan:" ++ s)
  else if String.eqb n "POP_VLAN" then Ok (T "pop_vlan")
  else if String.eqb n "PUSH_MPLS" then do s <- hex_of v; Ok (T "push_mpls:" ++ s)
  else if String.eqb n "POP_MPLS" then do s <- hex_of v; Ok (T "pop_mpls:" ++ s)
  else if String.eqb n "SET_QUEUE" then do s <- dec_of v; Ok (T "set_queue:" ++ s)
  else if String.eqb n "SET_NW_TTL" then do s <- dec_of v; Ok (T "set_nw_ttl:" ++ s)
  else if String.eqb n "DEC_NW_TTL" then Ok (T "dec_ttl")
  else if String.eqb n "SET_FIELD" then
    match v with
    | VSet field value =>
      match sassoc field FIELD_TO_OVS with
      | None => Err NotImplementedError
      | Some name =>
        do s <- formatter field (if String.eqb field "VLAN_VID" then Z.lor value 0x1000 else value) None;
        Ok (T "set_field:" ++ s ++ T "->" ++ T name)
      end
    | _ => Err TypeError
    end
  else Err NotImplementedError.
Definition actions_to_ovs (l : list action) : result text := do ts <- rall (map action_to_ovs l); Ok (join (T ",") ts).
(** convert_ovs.py:677-700 instructions_to_ovs; [if actions]: __len__, rule.py:491. The meter is
    not written. *)
Definition instructions_to_ovs (i : instructions) : result text :=
  do a <- (if al_is_empty (apply_actions i) then Ok [] else do t <- actions_to_ovs (al_iter (apply_actions i)); Ok [t]);
  let c := if clear_actions i then [T "clear_actions"] else [] in
  do w <- (if al_is_empty (write_actions i) then Ok [] else
             do t <- actions_to_ovs (al_iter (write_actions i)); Ok [T "write_actions(" ++ t ++ T ")"]);
  let m := match write_metadata i with
           | None => []
           | Some (v, None) => [T "write_metadata:" ++ format_num 10 0 v]
           | Some (v, Some k) => [T "write_metadata:" ++ format_num 10 0 v ++ T "/" ++ format_num 10 0 k]
           end in
  let g := match goto_table i with None => [] | Some t => [T "goto_table:" ++ format_num 10 0 t] end in
  Ok (join (T ",") (a ++ c ++ w ++ m ++ g)).
(** convert_ovs.py:703-731 match_to_ovs. The shorthands (714-724) are never used: match[field] is
    (value, mask, id), which never equals (value, None). *)
Definition field_to_ovs (it : string * (Z * option Z * Z)) : result text :=
  let '(field, (value, mask, _)) := it in
  match sassoc field FIELD_TO_OVS with
  | None => Err NotImplementedError
  | Some name => do s <- formatter field value mask; Ok (T name ++ T "=" ++ s)
  end.
Definition match_to_ovs (m : Match) : result text := do ts <- rall (map field_to_ovs (m_items m)); Ok (join (T ",") ts).
(** convert_ovs.py:734-750 rule_to_ovs; a cookie None is written as 0 *)
Definition rule_to_ovs (c : core) : result text :=
  do m <- match_to_ovs (rmatch c);
  do i <- instructions_to_ovs (inst c);
  Ok (T "cookie=0x" ++ format_num 16 0 (match cookie c with Some k => k | None => 0 end) ++ T ", table=" ++ format_num 10 0 (table c) ++
      T ", priority=" ++ format_num 10 0 (priority c) ++ T "," ++ m ++ T " actions=" ++ i).
(** convert_ovs.py:753-764 ruleset_to_ovs: the text of the file *)
Definition ruleset_to_ovs (l : list core) : result text :=
  do ls <- rall (map rule_to_ovs l); Ok (List.concat (map (fun s => s ++ [newline]) ls)).
