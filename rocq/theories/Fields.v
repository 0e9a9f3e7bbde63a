(** The OpenFlow 1.3.5 field table. Models ofequivalence/openflow_desc.py. *)
From Verif Require Export Base.

(** One match field: name, id and number of bits.
    openflow_desc.py:144-171 (class FieldDescription; bytes, maskable, default,
    pre-requisites and print format are not used by the modelled code and omitted). *)
Record field_desc := FD { fd_name : string; fd_id : Z; fd_bits : Z }.

(** openflow_desc.py:194-236 - the forty base fields. *)
Definition base_fields : list field_desc :=
  [ FD "IN_PORT" 0 32; FD "IN_PHY_PORT" 1 32; FD "METADATA" 2 64;
    FD "ETH_DST" 3 48; FD "ETH_SRC" 4 48; FD "ETH_TYPE" 5 16;
    FD "VLAN_VID" 6 13; FD "VLAN_PCP" 7 3; FD "IP_DSCP" 8 6; FD "IP_ECN" 9 2;
    FD "IP_PROTO" 10 8; FD "IPV4_SRC" 11 32; FD "IPV4_DST" 12 32;
    FD "TCP_SRC" 13 16; FD "TCP_DST" 14 16; FD "UDP_SRC" 15 16; FD "UDP_DST" 16 16;
    FD "SCTP_SRC" 17 16; FD "SCTP_DST" 18 16; FD "ICMPV4_TYPE" 19 8;
    FD "ICMPV4_CODE" 20 8; FD "ARP_OP" 21 16; FD "ARP_SPA" 22 32; FD "ARP_TPA" 23 32;
    FD "ARP_SHA" 24 48; FD "ARP_THA" 25 48; FD "IPV6_SRC" 26 128; FD "IPV6_DST" 27 128;
    FD "IPV6_FLABEL" 28 20; FD "ICMPV6_TYPE" 29 8; FD "ICMPV6_CODE" 30 8;
    FD "IPV6_ND_TARGET" 31 128; FD "IPV6_ND_SLL" 32 48; FD "IPV6_ND_TLL" 33 48;
    FD "MPLS_LABEL" 34 20; FD "MPLS_TC" 35 3; FD "MPLS_BOS" 36 1; FD "PBB_ISID" 37 24;
    FD "TUNNEL_ID" 38 64; FD "IPV6_EXTHDR" 39 9 ]%string.

(** openflow_desc.py:32 - HEADER_DEPTH = 2. *)
Definition HEADER_DEPTH : Z := 2.

(** openflow_desc.py:239-253 - the tunnel table: (push, pop, fields). *)
Record tunnel := Tun { tun_push : string; tun_pop : string; tun_fields : list string }.
Definition tunnels : list tunnel :=
  [ Tun "PUSH_VLAN" "POP_VLAN" ["VLAN_VID"; "VLAN_PCP"];
    Tun "PUSH_MPLS" "POP_MPLS" ["MPLS_LABEL"; "MPLS_TC"; "MPLS_BOS"];
    Tun "PUSH_PBB" "POP_PBB" ["ETH_DST"; "ETH_SRC"; "PBB_ISID"] ]%string.

(** Python's str() of a small non-negative integer; only depths 1..9 are ever used
    (HEADER_DEPTH = 2). *)
Definition digit_str (d : Z) : string :=
  String (ascii_of_N (48 + Z.to_N d)%N) EmptyString.

(** dict lookup in the field table by name *)
Fixpoint find_field (l : list field_desc) (name : string) : option field_desc :=
  match l with
  | [] => None
  | d :: t => if String.eqb (fd_name d) name then Some d else find_field t name
  end.

(** openflow_desc.py:262-269 - for every tunnel field add the copies field1, field2 with
    the next free id [len(self.oxm_fields)]. *)
Definition add_depth_copies (fs : list field_desc) (name : string) : list field_desc :=
  match find_field fs name with
  | None => fs
  | Some orig =>
    fold_left (fun acc d =>
                 acc ++ [FD (name ++ digit_str d)%string (Z.of_nat (List.length acc)) (fd_bits orig)])
              [1; 2] fs
  end.
Definition oxm_fields_def : list field_desc :=
  fold_left (fun acc t => fold_left add_depth_copies (tun_fields t) acc) tunnels base_fields.

(** openflow_desc.py:271-273 - [ordered_oxm_fields]: the fields sorted by id. They are
    created in id order, so the list below is already sorted (lemma [oxm_fields_sorted]). *)
Definition oxm_fields : list field_desc := Eval vm_compute in oxm_fields_def.

Lemma oxm_fields_ok : oxm_fields = oxm_fields_def.
Proof. vm_compute. reflexivity. Qed.

Lemma oxm_fields_sorted : map fd_id oxm_fields = map Z.of_nat (seq 0 (List.length oxm_fields)).
Proof. vm_compute. reflexivity. Qed.

(** headerspace.py:51-53 - total number of bits *)
Definition fields_bit_width : Z := fold_left (fun acc d => acc + fd_bits d) oxm_fields 0.
(** headerspace.py:55 - ceil(width / 8) *)
Definition bytes_needed : Z := (fields_bit_width + 7) / 8.
(** headerspace.py:56 *)
Definition extra_padding : Z := bytes_needed * 8 - fields_bit_width.
(** Number of ternary bits in a wildcard, [bytes_needed*8] at every use site. *)
Definition NB : Z := bytes_needed * 8.

Lemma fields_bit_width_val : fields_bit_width = 1581. Proof. reflexivity. Qed.
Lemma bytes_needed_val : bytes_needed = 198. Proof. reflexivity. Qed.
Lemma extra_padding_val : extra_padding = 3. Proof. reflexivity. Qed.
Lemma NB_val : NB = 1584. Proof. reflexivity. Qed.

(** headerspace.py:263-271 - WC_FIELD_OFFSET: offsets from the LSB, last field lowest. *)
Fixpoint build_field_offset (l : list field_desc) (offset : Z) : list (string * Z) :=
  match l with
  | [] => []
  | d :: t => (fd_name d, offset) :: build_field_offset t (offset + fd_bits d)
  end.
Definition WC_FIELD_OFFSET_def : list (string * Z) :=
  build_field_offset (rev oxm_fields) extra_padding.
Definition WC_FIELD_OFFSET : list (string * Z) := Eval vm_compute in WC_FIELD_OFFSET_def.
Lemma WC_FIELD_OFFSET_ok : WC_FIELD_OFFSET = WC_FIELD_OFFSET_def.
Proof. vm_compute. reflexivity. Qed.

Fixpoint assoc {B} (k : string) (l : list (string * B)) : option B :=
  match l with
  | [] => None
  | (k', v) :: t => if String.eqb k' k then Some v else assoc k t
  end.

(** The layout as one list, lowest offset first: (name, offset, bits). *)
Record slot := Slot { sl_name : string; sl_off : Z; sl_bits : Z }.
Fixpoint layout_from (l : list field_desc) (offset : Z) : list slot :=
  match l with
  | [] => []
  | d :: t => Slot (fd_name d) offset (fd_bits d) :: layout_from t (offset + fd_bits d)
  end.
Definition layout : list slot := Eval vm_compute in layout_from (rev oxm_fields) extra_padding.

Definition field_bits (name : string) : option Z :=
  option_map fd_bits (find_field oxm_fields name).
Definition field_id (name : string) : option Z :=
  option_map fd_id (find_field oxm_fields name).
Definition field_offset (name : string) : option Z := assoc name WC_FIELD_OFFSET.
