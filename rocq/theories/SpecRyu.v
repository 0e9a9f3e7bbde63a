(** What the conversion to and from Ryu objects should do, in its own words. *)
From Verif Require Export Ryu SpecText.
Local Open Scope string_scope.
Local Open Scope list_scope.
Local Open Scope Z_scope.

(** The names of the forty OpenFlow 1.3 match fields and their lengths on the wire in bytes
    (OpenFlow 1.3.5, table 12). *)
Definition wire_fields : list (string * nat) :=
  [("IN_PORT", 4); ("IN_PHY_PORT", 4); ("METADATA", 8); ("ETH_DST", 6); ("ETH_SRC", 6); ("ETH_TYPE", 2);
   ("VLAN_VID", 2); ("VLAN_PCP", 1); ("IP_DSCP", 1); ("IP_ECN", 1); ("IP_PROTO", 1); ("IPV4_SRC", 4);
   ("IPV4_DST", 4); ("TCP_SRC", 2); ("TCP_DST", 2); ("UDP_SRC", 2); ("UDP_DST", 2); ("SCTP_SRC", 2);
   ("SCTP_DST", 2); ("ICMPV4_TYPE", 1); ("ICMPV4_CODE", 1); ("ARP_OP", 2); ("ARP_SPA", 4); ("ARP_TPA", 4);
   ("ARP_SHA", 6); ("ARP_THA", 6); ("IPV6_SRC", 16); ("IPV6_DST", 16); ("IPV6_FLABEL", 4); ("ICMPV6_TYPE", 1);
   ("ICMPV6_CODE", 1); ("IPV6_ND_TARGET", 16); ("IPV6_ND_SLL", 6); ("IPV6_ND_TLL", 6); ("MPLS_LABEL", 4);
   ("MPLS_TC", 1); ("MPLS_BOS", 1); ("PBB_ISID", 3); ("TUNNEL_ID", 8); ("IPV6_EXTHDR", 2)]%nat.

(** [bs] are the [n] bytes of the number [v], most significant first *)
Definition bytes_are (n : nat) (v : Z) (bs : list ascii) : Prop :=
  List.length bs = n /\ weigh 256 (map (fun c => Z.of_N (N_of_ascii c)) bs) = v.
(** Bytes that do not look like the text of an address: not five or seven colons, no two colons
    in a row, not three dots, not five dashes. *)
Definition unlike_text (bs : list ascii) : Prop :=
  count_occ ascii_dec bs ":"%char <> 5%nat /\ count_occ ascii_dec bs ":"%char <> 7%nat /\
  ~ (exists a b, bs = a ++ [":"%char; ":"%char] ++ b) /\
  count_occ ascii_dec bs "."%char <> 3%nat /\ count_occ ascii_dec bs "-"%char <> 5%nat.
(** a number that fits the field and whose bytes are not an address in disguise *)
Definition sendable (n : nat) (v : Z) : Prop := 0 <= v < 256 ^ Z.of_nat n /\ forall bs, bytes_are n v bs -> unlike_text bs.

(** a stored match field that Ryu can carry: one of the forty fields, the value without bits
    outside the mask *)
Definition carried (kv : string * (Z * option Z * Z)) : Prop :=
  let '(k, (v, mk, _)) := kv in exists n, In (k, n) wire_fields /\ sendable n v /\ match mk with None => True | Some x => sendable n x /\ Z.land v x = v end.

(** an action as OpenFlow has it, without Group objects: a value where one belongs *)
Definition ordinary (a : action) : Prop :=
  let '(n, v) := a in
  (In n ["COPY_TTL_OUT"; "COPY_TTL_IN"; "DEC_MPLS_TTL"; "POP_VLAN"; "DEC_NW_TTL"; "POP_PBB"] /\ v = VNone) \/
  (In n ["OUTPUT"; "SET_MPLS_TTL"; "PUSH_VLAN"; "PUSH_MPLS"; "POP_MPLS"; "SET_QUEUE"; "GROUP"; "SET_NW_TTL"; "PUSH_PBB"] /\ exists k, v = VInt k) \/
  (n = "SET_FIELD" /\ exists f k, v = VSet f k /\ In f (map fst wire_fields)).

(** a rule built from match fields, applied actions and written actions, without write-metadata
    and meter *)
Definition built (ru : core) : Prop := exists items xs ws,
  match_append_all registry_init match_new items = (registry_init, rmatch ru) /\
  al_of xs = Ok (apply_actions (inst ru)) /\ as_of ws = Ok (write_actions (inst ru)) /\
  Forall ordinary xs /\ Forall ordinary ws /\ write_metadata (inst ru) = None /\ meter (inst ru) = None.

(** ** Groups *)
(** the ids that a list of actions refers to *)
Fixpoint refs (l : list ryu_action) : list Z :=
  match l with
  | [] => []
  | OFPActionGroup (VInt id) :: t => id :: refs t
  | _ :: t => refs t
  end.
(** Sent in order, every group only refers to groups sent before it. *)
Fixpoint installable (known : list Z) (ms : list group_mod) : Prop :=
  match ms with
  | [] => True
  | m :: t => (forall b id, In b (gm_buckets m) -> In id (refs b) -> In id known) /\ installable (gm_id m :: known) t
  end.
(** What an action does once the messages are installed: [means ms ra a]. The type of a group
    is one of Ryu's names ALL, SELECT, INDIRECT, FF. *)
Inductive means (ms : list group_mod) : ryu_action -> action -> Prop :=
| m_output v : means ms (OFPActionOutput v) ("OUTPUT", v)
| m_out : means ms OFPActionCopyTtlOut ("COPY_TTL_OUT", VNone)
| m_in : means ms OFPActionCopyTtlIn ("COPY_TTL_IN", VNone)
| m_set_mpls v : means ms (OFPActionSetMplsTtl v) ("SET_MPLS_TTL", v)
| m_dec_mpls : means ms OFPActionDecMplsTtl ("DEC_MPLS_TTL", VNone)
| m_push_vlan v : means ms (OFPActionPushVlan v) ("PUSH_VLAN", v)
| m_pop_vlan : means ms OFPActionPopVlan ("POP_VLAN", VNone)
| m_push_mpls v : means ms (OFPActionPushMpls v) ("PUSH_MPLS", v)
| m_pop_mpls v : means ms (OFPActionPopMpls v) ("POP_MPLS", v)
| m_queue v : means ms (OFPActionSetQueue v) ("SET_QUEUE", v)
| m_set_nw v : means ms (OFPActionSetNwTtl v) ("SET_NW_TTL", v)
| m_dec_nw : means ms OFPActionDecNwTtl ("DEC_NW_TTL", VNone)
| m_set f v : means ms (OFPActionSetField (str_lower f) v) ("SET_FIELD", VSet f v)
| m_push_pbb v : means ms (OFPActionPushPbb v) ("PUSH_PBB", v)
| m_pop_pbb : means ms OFPActionPopPbb ("POP_PBB", VNone)
| m_group id t bs buckets : In (mkGM (str_upper t) id bs) ms -> all_means ms bs buckets ->
    means ms (OFPActionGroup (VInt id)) ("GROUP", VGroup t buckets)
with all_means (ms : list group_mod) : list (list ryu_action) -> list (list action) -> Prop :=
| am_nil : all_means ms [] []
| am_cons b bs c cs : list_means ms b c -> all_means ms bs cs -> all_means ms (b :: bs) (c :: cs)
with list_means (ms : list group_mod) : list ryu_action -> list action -> Prop :=
| lm_nil : list_means ms [] []
| lm_cons x xs y ys : means ms x y -> list_means ms xs ys -> list_means ms (x :: xs) (y :: ys).
(** ordinary actions, or Group objects with such buckets to any depth *)
Inductive group_objects : action -> Prop :=
| go_plain a : ordinary a -> fst a <> "GROUP" -> group_objects a
| go_group t bs : (forall b a, In b bs -> In a b -> group_objects a) -> group_objects ("GROUP", VGroup t bs).

(** Group objects whose number comes from the counter: any TTP group but the two interface
    groups, which are numbered after their VLAN and port *)
Inductive counted (link : aval -> option string) : action -> Prop :=
| ct_plain a : (forall t bs, snd a <> VGroup t bs) -> counted link a
| ct_group t bs name : link (VGroup t bs) = Some name -> name <> "L2 Interface" -> name <> "L2 Unfiltered Interface" ->
    (forall b a, In b bs -> In a b -> counted link a) -> counted link ("GROUP", VGroup t bs).
