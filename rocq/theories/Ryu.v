(** Conversion of rules to and from the Ryu controller's objects.
    Models ofequivalence/convert_ryu.py:47-164 and 322-542.
    Ryu itself is a library: its message classes are modelled as records that keep the
    arguments of their constructors. OFPMatch stores every field through
    oxm_from_user/oxm_to_user, that is as a big-endian byte string of the field's length; it
    clears the value bits outside the mask and sorts the fields by OXM type. Only the forty
    fields of OpenFlow 1.3 are known to [ryu_types] (Ryu's Nicira extensions are not listed),
    other names are the KeyError of oxm_from_user. Not modelled: reading and writing the files
    (json, pickle). *)
From Verif Require Export Rule Format.
Local Open Scope string_scope.
Local Open Scope list_scope.
Local Open Scope Z_scope.

(** str.lower() and str.upper() of ASCII names *)
Definition lower (c : ascii) : ascii := if (65 <=? ord c) && (ord c <=? 90) then chr (ord c + 32) else c.
Fixpoint smap (f : ascii -> ascii) (s : string) : string :=
  match s with EmptyString => EmptyString | String c t => String (f c) (smap f t) end.
Definition str_lower (s : string) : string := smap lower s.
Definition str_upper (s : string) : string := smap upper s.

(** ** Ryu: names, OXM types and sizes in bytes (ryu/ofproto/ofproto_v1_3.py oxm_types) *)
Definition ryu_types : list (string * (Z * Z)) :=
  [("in_port", (0, 4)); ("in_phy_port", (1, 4)); ("metadata", (2, 8)); ("eth_dst", (3, 6));
   ("eth_src", (4, 6)); ("eth_type", (5, 2)); ("vlan_vid", (6, 2)); ("vlan_pcp", (7, 1));
   ("ip_dscp", (8, 1)); ("ip_ecn", (9, 1)); ("ip_proto", (10, 1)); ("ipv4_src", (11, 4));
   ("ipv4_dst", (12, 4)); ("tcp_src", (13, 2)); ("tcp_dst", (14, 2)); ("udp_src", (15, 2));
   ("udp_dst", (16, 2)); ("sctp_src", (17, 2)); ("sctp_dst", (18, 2)); ("icmpv4_type", (19, 1));
   ("icmpv4_code", (20, 1)); ("arp_op", (21, 2)); ("arp_spa", (22, 4)); ("arp_tpa", (23, 4));
   ("arp_sha", (24, 6)); ("arp_tha", (25, 6)); ("ipv6_src", (26, 16)); ("ipv6_dst", (27, 16));
   ("ipv6_flabel", (28, 4)); ("icmpv6_type", (29, 1)); ("icmpv6_code", (30, 1));
   ("ipv6_nd_target", (31, 16)); ("ipv6_nd_sll", (32, 6)); ("ipv6_nd_tll", (33, 6));
   ("mpls_label", (34, 4)); ("mpls_tc", (35, 1)); ("mpls_bos", (36, 1)); ("pbb_isid", (37, 3));
   ("tunnel_id", (38, 8)); ("ipv6_exthdr", (39, 2))].

(** big-endian bytes, most significant first (higher bytes of a larger number are dropped) *)
Fixpoint to_bytes (size : nat) (v : Z) : text :=
  match size with
  | O => []
  | S k => to_bytes k (v / 256) ++ [chr (v mod 256)]
  end.
(** a field of an OFPMatch: name, value bytes, mask bytes *)
Definition ryu_field : Type := string * (text * option text).
Definition oxm_from_user (name : string) (value : Z) (mask : option Z) : result (Z * ryu_field) :=
  match sassoc name ryu_types with
  | None => Err KeyError
  | Some (num, size) =>
    Ok (num, (name, match mask with
                    | None => (to_bytes (Z.to_nat size) value, None)
                    | Some m => (to_bytes (Z.to_nat size) (Z.land value m), Some (to_bytes (Z.to_nat size) m))
                    end))
  end.
(** list.sort(key = OXM type): stable *)
Fixpoint insert_num (n : Z) (f : ryu_field) (l : list (Z * ryu_field)) : list (Z * ryu_field) :=
  match l with
  | [] => [(n, f)]
  | (n', g) :: t => if n' <=? n then (n', g) :: insert_num n f t else (n, f) :: l
  end.
(** OFPMatch( **kwargs ) *)
Definition ofp_match (kwargs : dict (Z * option Z)) : result (list ryu_field) :=
  do fs <- rall (map (fun kv => oxm_from_user (fst kv) (fst (snd kv)) (snd (snd kv))) kwargs);
  Ok (map snd (fold_left (fun acc nf => insert_num (fst nf) (snd nf) acc) fs [])).

(** ** Actions and instructions of Ryu *)
Inductive ryu_action :=
| OFPActionOutput (port : aval)
| OFPActionCopyTtlOut
| OFPActionCopyTtlIn
| OFPActionSetMplsTtl (mpls_ttl : aval)
| OFPActionDecMplsTtl
| OFPActionPushVlan (ethertype : aval)
| OFPActionPopVlan
| OFPActionPushMpls (ethertype : aval)
| OFPActionPopMpls (ethertype : aval)
| OFPActionSetQueue (queue_id : aval)
| OFPActionGroup (group_id : aval)
| OFPActionSetNwTtl (nw_ttl : aval)
| OFPActionDecNwTtl
| OFPActionSetField (key : string) (value : Z)
| OFPActionPushPbb (ethertype : aval)
| OFPActionPopPbb
| OFPActionExperimenter.
Inductive ryu_instruction :=
| OFPInstructionGotoTable (table_id : Z)
| OFPInstructionWriteMetadata (metadata metadata_mask : Z)
| OFPInstructionWriteActions (actions : list ryu_action)
| OFPInstructionApplyActions (actions : list ryu_action)
| OFPInstructionClearActions
| OFPInstructionMeter (meter_id : Z)
| OFPInstructionExperimenter.
Record ryu_flow := mkFlow {
  f_priority : Z; f_cookie : option Z; f_match : list ryu_field;
  f_instructions : list ryu_instruction; f_table : Z }.
(** an OFPGroupMod: type, id, buckets *)
Record group_mod := mkGM { gm_type : string; gm_id : Z; gm_buckets : list (list ryu_action) }.

(** ** From Ryu *)
(** convert_ryu.py:47-61 match_from_ryu *)
Fixpoint match_from_ryu (r : registry) (m : Match) (fields : list ryu_field) : result (registry * Match) :=
  match fields with
  | [] => Ok (r, m)
  | (name, (vb, mb)) :: t =>
    do value <- normalise_bytes vb;
    do mask <- match mb with None => Ok None | Some b => rmap Some (normalise_bytes b) end;
    let '(r', m') := match_append r m (str_upper name) value mask in
    match_from_ryu r' m' t
  end.
(** convert_ryu.py:79-118, one action. SET_FIELD: the objects have no attribute [field], so
    action.value is read (lines 106-112); it is an int here, which normalise_bytes returns. *)
Definition action_from_ryu (a : ryu_action) : result action :=
  match a with
  | OFPActionOutput port => Ok ("OUTPUT", port)
  | OFPActionCopyTtlOut => Ok ("COPY_TTL_OUT", VNone)
  | OFPActionCopyTtlIn => Ok ("COPY_TTL_IN", VNone)
  | OFPActionSetMplsTtl n => Ok ("SET_MPLS_TTL", n)
  | OFPActionDecMplsTtl => Ok ("DEC_MPLS_TTL", VNone)
  | OFPActionPushVlan n => Ok ("PUSH_VLAN", n)
  | OFPActionPopVlan => Ok ("POP_VLAN", VNone)
  | OFPActionPushMpls n => Ok ("PUSH_MPLS", n)
  | OFPActionPopMpls n => Ok ("POP_MPLS", n)
  | OFPActionSetQueue n => Ok ("SET_QUEUE", n)
  | OFPActionGroup n => Ok ("GROUP", n)
  | OFPActionSetNwTtl n => Ok ("SET_NW_TTL", n)
  | OFPActionDecNwTtl => Ok ("DEC_NW_TTL", VNone)
  | OFPActionSetField key value => Ok ("SET_FIELD", VSet (str_upper key) value)
  | OFPActionPushPbb n => Ok ("PUSH_PBB", n)
  | OFPActionPopPbb => Ok ("POP_PBB", VNone)
  | OFPActionExperimenter => Err ValueError
  end.
(** convert_ryu.py:64-118 actions_from_ryu; [append] is that of the ActionSet or the
    ActionList *)
Definition actions_from_ryu (append : alist -> action -> result alist) (l : list ryu_action) : result alist :=
  rfold (fun ret a => do x <- action_from_ryu a; append ret x) l al_empty.
(** convert_ryu.py:121-146 instructions_from_ryu. Line 145 [assert "Not standard"] never
    fails. *)
Definition instruction_from_ryu (ret : instructions) (i : ryu_instruction) : result instructions :=
  match i with
  | OFPInstructionGotoTable t =>
    Ok (mkInst (Some t) (apply_actions ret) (write_actions ret) (write_metadata ret) (clear_actions ret) (meter ret))
  | OFPInstructionWriteMetadata v m =>
    Ok (mkInst (goto_table ret) (apply_actions ret) (write_actions ret) (Some (v, Some m)) (clear_actions ret) (meter ret))
  | OFPInstructionWriteActions l =>
    do s <- actions_from_ryu as_append l;
    Ok (mkInst (goto_table ret) (apply_actions ret) s (write_metadata ret) (clear_actions ret) (meter ret))
  | OFPInstructionApplyActions l =>
    do s <- actions_from_ryu al_append l;
    Ok (mkInst (goto_table ret) s (write_actions ret) (write_metadata ret) (clear_actions ret) (meter ret))
  | OFPInstructionClearActions =>
    Ok (mkInst (goto_table ret) (apply_actions ret) (write_actions ret) (write_metadata ret) true (meter ret))
  | OFPInstructionMeter _ => Err AssertionError
  | OFPInstructionExperimenter => Ok ret
  end.
Definition instructions_from_ryu (l : list ryu_instruction) : result instructions :=
  rfold instruction_from_ryu l inst_empty.
(** convert_ryu.py:149-164 rule_from_ryu *)
Definition rule_from_ryu (r : registry) (f : ryu_flow) : result (registry * core) :=
  do (r', m) <- match_from_ryu r match_new (f_match f);
  do i <- instructions_from_ryu (f_instructions f);
  Ok (r', mkCore (f_priority f) (f_cookie f) m i (f_table f)).

(** ** To Ryu *)
(** convert_ryu.py:322-385 group_ofdpa_id. [link]: group.ttp_link.name, None when ttp_link is
    None; [vlan_vid]: the rule's VLAN_VID value, if it matches one; [bucket]: group.buckets[0],
    if any. [counter] is len(_bad_counter), the list that Python keeps between calls. The local
    variables vlan_vid and port_id are unbound when nothing assigned them. *)
Definition last_output (bucket : list (string * aval)) : option aval :=
  fold_left (fun acc a => if String.eqb (fst a) "OUTPUT" then Some (snd a) else acc) bucket None.
Definition int_of (v : option aval) : result Z :=
  match v with
  | None => Err UnboundLocalError
  | Some (VInt n) => Ok n
  | Some _ => Err TypeError
  end.
Definition group_ofdpa_id (link : option string) (vlan_vid : option Z) (bucket : option (list (string * aval)))
  (counter : Z) : result (Z * Z) :=
  let vlan := match vlan_vid with Some v => Ok (Z.land v 0xfff) | None => Err UnboundLocalError end in
  let port := int_of (match bucket with Some b => last_output b | None => None end) in
  match link with
  | None => Err AttributeError
  | Some name =>
    if String.eqb name "L2 Interface" then
      do v <- vlan; do p <- port; Ok (Z.lor (Z.shiftl v 16) p, counter)
    else if String.eqb name "L2 Unfiltered Interface" then
      do p <- port; Ok (Z.lor (Z.shiftl 11 28) p, counter)
    else if String.eqb name "L3 Interface" then Ok (Z.lor (Z.shiftl 5 28) (counter + 1), counter + 1)
    else if String.eqb name "L3 Multicast" then
      do v <- vlan; Ok (Z.lor (Z.lor (Z.shiftl 6 28) (Z.shiftl v 16)) (counter + 1), counter + 1)
    else if String.eqb name "L3 Unicast" then Ok (Z.lor (Z.shiftl 2 28) (counter + 1), counter + 1)
    else if String.eqb name "L3 ECMP" then Ok (Z.lor (Z.shiftl 7 28) (counter + 1), counter + 1)
    else if String.eqb name "L2 Flood" then
      do v <- vlan; Ok (Z.lor (Z.lor (Z.shiftl 4 28) (Z.shiftl v 16)) (counter + 1), counter + 1)
    else if String.eqb name "L2 Multicast" then
      do v <- vlan; Ok (Z.lor (Z.lor (Z.shiftl 3 28) (Z.shiftl v 16)) (counter + 1), counter + 1)
    else if String.eqb name "L3 Rewrite" then Ok (Z.lor (Z.shiftl 1 28) (counter + 1), counter + 1)
    else Ok (counter + 1, counter + 1)
  end.
(** the OFPGT_ constants of OpenFlow 1.3 *)
Definition group_types : list string := ["ALL"; "SELECT"; "INDIRECT"; "FF"].

Section ToRyu.
  (** The name of a Group's TTP link: an attribute of the object, not stored in [VGroup].
      Without a Table Type Pattern it is None for every group. *)
  Context (link : aval -> option string).
  (** the rule's VLAN_VID value *)
  Context (vlan_vid : option Z).

  (** convert_ryu.py:425-465, one action other than a GROUP with a Group object *)
  Definition action_to_ryu (a : action) : result ryu_action :=
    let '(n, v) := a in
    if String.eqb n "OUTPUT" then Ok (OFPActionOutput v)
    else if String.eqb n "COPY_TTL_OUT" then Ok OFPActionCopyTtlOut
    else if String.eqb n "COPY_TTL_IN" then Ok OFPActionCopyTtlIn
    else if String.eqb n "SET_MPLS_TTL" then Ok (OFPActionSetMplsTtl v)
    else if String.eqb n "DEC_MPLS_TTL" then Ok OFPActionDecMplsTtl
    else if String.eqb n "PUSH_VLAN" then Ok (OFPActionPushVlan v)
    else if String.eqb n "POP_VLAN" then Ok OFPActionPopVlan
    else if String.eqb n "PUSH_MPLS" then Ok (OFPActionPushMpls v)
    else if String.eqb n "POP_MPLS" then Ok (OFPActionPopMpls v)
    else if String.eqb n "SET_QUEUE" then Ok (OFPActionSetQueue v)
    else if String.eqb n "GROUP" then Ok (OFPActionGroup v)
    else if String.eqb n "SET_NW_TTL" then Ok (OFPActionSetNwTtl v)
    else if String.eqb n "DEC_NW_TTL" then Ok OFPActionDecNwTtl
    else if String.eqb n "SET_FIELD" then
      match v with VSet f x => Ok (OFPActionSetField (str_lower f) x) | _ => Err TypeError end
    else if String.eqb n "PUSH_PBB" then Ok (OFPActionPushPbb v)
    else if String.eqb n "POP_PBB" then Ok OFPActionPopPbb
    else Err AssertionError.

  (** convert_ryu.py:388-408 group_to_ryu: (group id, messages, counter). [group.type_.upper()]
      must name an OFPGT_ constant (AttributeError otherwise). The messages of the nested
      groups come before the group's own. *)
  Fixpoint group_to_ryu (v : aval) (counter : Z) : result (Z * list group_mod * Z) :=
    match v with
    | VGroup t buckets =>
      if negb (str_in (str_upper t) group_types) then Err AttributeError else
      do (id, c0) <- group_ofdpa_id (link v) vlan_vid (hd_error buckets) counter;
      do (bs, msgs, c) <-
        (fix go_b bs c : result (list (list ryu_action) * list group_mod * Z) :=
           match bs with
           | [] => Ok ([], [], c)
           | b :: bs' =>
             do (ras, ms, c1) <-
               (fix go_a (l : list (string * aval)) (c : Z) {struct l} : result (list ryu_action * list group_mod * Z) :=
                  match l with
                  | [] => Ok ([], [], c)
                  | a :: t =>
                    do (ra, ms, c1) <-
                      (if String.eqb (fst a) "GROUP" then
                         match snd a with
                         | VGroup _ _ => do (gid, ms, c1) <- group_to_ryu (snd a) c; Ok (OFPActionGroup (VInt gid), ms, c1)
                         | w => Ok (OFPActionGroup w, [], c)
                         end
                       else do ra <- action_to_ryu a; Ok (ra, [], c));
                    do (ras, ms', c2) <- go_a t c1;
                    Ok (ra :: ras, ms ++ ms', c2)
                  end) b c;
             do (rbs, ms', c2) <- go_b bs' c1;
             Ok (ras :: rbs, ms ++ ms', c2)
           end) buckets c0;
      Ok (id, msgs ++ [mkGM (str_upper t) id bs], c)
    | _ => Err AttributeError
    end.
  (** convert_ryu.py:411-466 actions_to_ryu: (actions, messages, counter) *)
  Fixpoint actions_to_ryu (l : list action) (c : Z) : result (list ryu_action * list group_mod * Z) :=
    match l with
    | [] => Ok ([], [], c)
    | a :: t =>
      do (ra, ms, c1) <-
        (if String.eqb (fst a) "GROUP" then
           match snd a with
           | VGroup _ _ => do (gid, ms, c1) <- group_to_ryu (snd a) c; Ok (OFPActionGroup (VInt gid), ms, c1)
           | w => Ok (OFPActionGroup w, [], c)
           end
         else do ra <- action_to_ryu a; Ok (ra, [], c));
      do (ras, ms', c2) <- actions_to_ryu t c1;
      Ok (ra :: ras, ms ++ ms', c2)
    end.
  (** convert_ryu.py:469-505 instructions_to_ryu. [x.empty()]: no action in orig_order
      (rule.py:788-791). *)
  Definition al_is_empty (l : alist) : bool := match orig_order l with [] => true | _ => false end.
  Definition instructions_to_ryu (i : instructions) (c : Z) : result (list ryu_instruction * list group_mod * Z) :=
    let goto := match goto_table i with Some t => [OFPInstructionGotoTable t] | None => [] end in
    if match write_metadata i with Some _ => true | None => false end then Err AssertionError else
    do (ws, ms, c1) <- (if al_is_empty (write_actions i) then Ok ([], [], c) else
      do (ras, ms, c1) <- actions_to_ryu (al_iter (write_actions i)) c; Ok ([OFPInstructionWriteActions ras], ms, c1));
    do (acts, ms', c2) <- (if al_is_empty (apply_actions i) then Ok ([], [], c1) else
      do (ras, ms', c2) <- actions_to_ryu (al_iter (apply_actions i)) c1; Ok ([OFPInstructionApplyActions ras], ms', c2));
    let clear := if clear_actions i then [OFPInstructionClearActions] else [] in
    if match meter i with Some _ => true | None => false end then Err AssertionError else
    Ok (goto ++ ws ++ acts ++ clear, ms ++ ms', c2).
End ToRyu.

(** convert_ryu.py:508-515 match_to_ryu: the dict comprehension, then OFPMatch *)
Definition match_to_ryu (m : Match) : result (list ryu_field) :=
  ofp_match (fold_left (fun d kv => let '(k, (v, mk, _)) := kv in dict_set d (str_lower k) (v, mk)) (m_items m) []).
(** convert_ryu.py:518-542 rule_to_ryu; the priority is an int already *)
Definition rule_to_ryu (link : aval -> option string) (c : core) (counter : Z) : result (ryu_flow * list group_mod * Z) :=
  do fs <- match_to_ryu (rmatch c);
  let vlan := match dict_get (m_items (rmatch c)) "VLAN_VID" with Some (v, _, _) => Some v | None => None end in
  do (is, ms, counter') <- instructions_to_ryu link vlan (inst c) counter;
  Ok (mkFlow (priority c) (cookie c) fs is (table c), ms, counter').

(** convert_ryu.py:167-171 ruleset_to_ryu: the extra messages are dropped *)
Fixpoint ruleset_to_ryu (link : aval -> option string) (l : list core) (counter : Z) : result (list ryu_flow * Z) :=
  match l with
  | [] => Ok ([], counter)
  | c :: t =>
    do (f, _, counter1) <- rule_to_ryu link c counter;
    do (fs, counter2) <- ruleset_to_ryu link t counter1;
    Ok (f :: fs, counter2)
  end.
(** [rule_from_ryu(r) for r in ruleset], convert_ryu.py:230, 316 *)
Fixpoint ruleset_from_ryu (r : registry) (l : list ryu_flow) : result (registry * list core) :=
  match l with
  | [] => Ok (r, [])
  | f :: t =>
    do (r1, c) <- rule_from_ryu r f;
    do (r2, cs) <- ruleset_from_ryu r1 t;
    Ok (r2, c :: cs)
  end.
