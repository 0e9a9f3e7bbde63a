(** Specification for the lazy treatment of set fields: the header that a packet carries. *)
From Verif Require Export SpecExec Spec.
Local Open Scope list_scope.
Local Open Scope Z_scope.

(** The value of a field in a packet; [None] when the packet does not have the header. *)
Definition value_in (q : pkt) (f : string) : option Z :=
  let fr := p_top q in
  match which f with
  | FDst => Some (f_dst fr)
  | FSrc => Some (f_src fr)
  | FType => Some (f_type fr)
  | FVid => option_map v_vid (hd_error (f_vlans fr))
  | FPcp => option_map v_pcp (hd_error (f_vlans fr))
  | FLabel => option_map m_label (hd_error (f_mpls fr))
  | FTc => option_map m_tc (hd_error (f_mpls fr))
  | FBos => option_map m_bos (hd_error (f_mpls fr))
  | FIsid => match p_inner q with [] => None | _ => Some (f_isid fr) end
  | FFlat g => Some (p_flat q g)
  end.
(** The header [p] is that of the packet [q]: every field that [q] has holds in [p] the value it
    has in [q]. *)
Definition carries (p : packet) (q : pkt) : Prop :=
  forall s v, In s layout -> value_in q (sl_name s) = Some v ->
  0 <= v < 2 ^ sl_bits s /\ forall j, 0 <= j < sl_bits s -> field_bit p s j = Z.testbit v j.
