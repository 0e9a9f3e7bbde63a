(** What OpenFlow 1.3 actions do to a packet: the specification for the action properties.
    Independent of the model's functions; only the syntax of actions is shared.

    A packet is a stack of Ethernet frames (more than one after PUSH_PBB), each with its own
    addresses, ethertype, VLAN tags and MPLS shim headers; all deeper fields are flat. New tags
    copy the values of the outer tag they cover (OpenFlow 1.3, 5.10 / table "Existing fields
    that may be copied into new fields on a push action"). Setting a field of a header that is
    not there does nothing. TTLs stop at 0; invalid TTLs do not drop the packet. *)
From Verif Require Export Actions SpecAction.
Local Open Scope string_scope.
Local Open Scope list_scope.
Local Open Scope Z_scope.

Record vlan := Vlan { v_tpid : Z; v_vid : Z; v_pcp : Z }.
Record mpls := Mpls { m_label : Z; m_tc : Z; m_bos : Z; m_ttl : Z }.
Record frame := Frame { f_dst : Z; f_src : Z; f_type : Z; f_isid : Z; f_ipcp : Z; f_vlans : list vlan; f_mpls : list mpls }.
Record pkt := Pkt { p_top : frame; p_inner : list frame; p_flat : string -> Z; p_ttl : Z; p_queue : option Z }.

Definition with_top (g : frame -> frame) (p : pkt) : pkt := Pkt (g (p_top p)) (p_inner p) (p_flat p) (p_ttl p) (p_queue p).
Definition with_vlans (g : list vlan -> list vlan) (f : frame) : frame :=
  Frame (f_dst f) (f_src f) (f_type f) (f_isid f) (f_ipcp f) (g (f_vlans f)) (f_mpls f).
Definition with_mpls (g : list mpls -> list mpls) (f : frame) : frame :=
  Frame (f_dst f) (f_src f) (f_type f) (f_isid f) (f_ipcp f) (f_vlans f) (g (f_mpls f)).
Definition with_type (t : Z) (f : frame) : frame :=
  Frame (f_dst f) (f_src f) t (f_isid f) (f_ipcp f) (f_vlans f) (f_mpls f).
Definition on_head {X} (g : X -> X) (l : list X) : list X := match l with [] => [] | x :: t => g x :: t end.

Inductive mfield := FDst | FSrc | FType | FVid | FPcp | FLabel | FTc | FBos | FIsid | FFlat (f : string).
Definition which (f : string) : mfield :=
  if String.eqb f "ETH_DST" then FDst else if String.eqb f "ETH_SRC" then FSrc
  else if String.eqb f "ETH_TYPE" then FType else if String.eqb f "VLAN_VID" then FVid
  else if String.eqb f "VLAN_PCP" then FPcp else if String.eqb f "MPLS_LABEL" then FLabel
  else if String.eqb f "MPLS_TC" then FTc else if String.eqb f "MPLS_BOS" then FBos
  else if String.eqb f "PBB_ISID" then FIsid else FFlat f.

Definition set_field (f : string) (v : Z) (p : pkt) : pkt :=
  match which f with
  | FDst => with_top (fun fr => Frame v (f_src fr) (f_type fr) (f_isid fr) (f_ipcp fr) (f_vlans fr) (f_mpls fr)) p
  | FSrc => with_top (fun fr => Frame (f_dst fr) v (f_type fr) (f_isid fr) (f_ipcp fr) (f_vlans fr) (f_mpls fr)) p
  | FType => with_top (with_type v) p
  | FVid => with_top (with_vlans (on_head (fun t => Vlan (v_tpid t) v (v_pcp t)))) p
  | FPcp => with_top (with_vlans (on_head (fun t => Vlan (v_tpid t) (v_vid t) v))) p
  | FLabel => with_top (with_mpls (on_head (fun m => Mpls v (m_tc m) (m_bos m) (m_ttl m)))) p
  | FTc => with_top (with_mpls (on_head (fun m => Mpls (m_label m) v (m_bos m) (m_ttl m)))) p
  | FBos => with_top (with_mpls (on_head (fun m => Mpls (m_label m) (m_tc m) v (m_ttl m)))) p
  | FIsid => match p_inner p with
             | [] => p
             | _ => with_top (fun fr => Frame (f_dst fr) (f_src fr) (f_type fr) v (f_ipcp fr) (f_vlans fr) (f_mpls fr)) p
             end
  | FFlat g => Pkt (p_top p) (p_inner p) (fun h => if String.eqb h g then v else p_flat p h) (p_ttl p) (p_queue p)
  end.

Definition set_ttl_of (t : Z) (m : mpls) : mpls := Mpls (m_label m) (m_tc m) (m_bos m) t.
Definition dec (t : Z) : Z := Z.max 0 (t - 1).
Definition with_ttl (t : Z) (p : pkt) : pkt := Pkt (p_top p) (p_inner p) (p_flat p) t (p_queue p).

Definition push_vlan (tpid : Z) (p : pkt) : pkt :=
  with_top (with_vlans (fun l => match l with [] => [Vlan tpid 0 0] | t :: _ => Vlan tpid (v_vid t) (v_pcp t) :: l end)) p.
Definition pop_vlan (p : pkt) : pkt := with_top (with_vlans (@tl vlan)) p.
Definition push_mpls (et : Z) (p : pkt) : pkt :=
  with_top (fun f => with_type et (with_mpls (fun l =>
     match l with [] => [Mpls 0 0 1 (p_ttl p)] | m :: _ => Mpls (m_label m) (m_tc m) 0 (m_ttl m) :: l end) f)) p.
(** popping an MPLS header that is not there does nothing *)
Definition pop_mpls (et : Z) (p : pkt) : pkt :=
  match f_mpls (p_top p) with
  | [] => p
  | _ => with_top (fun f => with_type et (with_mpls (@tl mpls) f)) p
  end.
Definition push_pbb (et : Z) (p : pkt) : pkt :=
  let f := p_top p in
  Pkt (Frame (f_dst f) (f_src f) et (match p_inner p with [] => 0 | _ => f_isid f end)
             (match f_vlans f with [] => 0 | t :: _ => v_pcp t end) [] [])
      (f :: p_inner p) (p_flat p) (p_ttl p) (p_queue p).
Definition pop_pbb (p : pkt) : pkt :=
  match p_inner p with [] => p | f :: r => Pkt f r (p_flat p) (p_ttl p) (p_queue p) end.
Definition copy_ttl_out (p : pkt) : pkt :=
  with_top (with_mpls (fun l => match l with
    | m1 :: m2 :: r => set_ttl_of (m_ttl m2) m1 :: m2 :: r
    | [m] => [set_ttl_of (p_ttl p) m]
    | [] => [] end)) p.
Definition copy_ttl_in (p : pkt) : pkt :=
  match f_mpls (p_top p) with
  | m1 :: m2 :: r => with_top (with_mpls (fun _ => m1 :: set_ttl_of (m_ttl m1) m2 :: r)) p
  | [m] => with_ttl (m_ttl m) p
  | [] => p
  end.

Inductive akind :=
| KSet | KPushVlan | KPopVlan | KPushMpls | KPopMpls | KPushPbb | KPopPbb | KCopyOut | KCopyIn
| KSetMplsTtl | KDecMplsTtl | KSetNwTtl | KDecNwTtl | KQueue | KOutput | KGroup | KOther.
Definition kind (n : string) : akind :=
  if String.eqb n "SET_FIELD" then KSet else if String.eqb n "PUSH_VLAN" then KPushVlan
  else if String.eqb n "POP_VLAN" then KPopVlan else if String.eqb n "PUSH_MPLS" then KPushMpls
  else if String.eqb n "POP_MPLS" then KPopMpls else if String.eqb n "PUSH_PBB" then KPushPbb
  else if String.eqb n "POP_PBB" then KPopPbb else if String.eqb n "COPY_TTL_OUT" then KCopyOut
  else if String.eqb n "COPY_TTL_IN" then KCopyIn else if String.eqb n "SET_MPLS_TTL" then KSetMplsTtl
  else if String.eqb n "DEC_MPLS_TTL" then KDecMplsTtl else if String.eqb n "SET_NW_TTL" then KSetNwTtl
  else if String.eqb n "DEC_NW_TTL" then KDecNwTtl else if String.eqb n "SET_QUEUE" then KQueue
  else if String.eqb n "OUTPUT" then KOutput else if String.eqb n "GROUP" then KGroup else KOther.

Definition num (v : aval) : Z := match v with VInt n => n | _ => 0 end.
(** What an action does to the packet that carries on. *)
Definition rewrite_pkt (a : action) (p : pkt) : pkt :=
  match kind (fst a) with
  | KSet => match snd a with VSet f v => set_field f v p | _ => p end
  | KPushVlan => push_vlan (num (snd a)) p
  | KPopVlan => pop_vlan p
  | KPushMpls => push_mpls (num (snd a)) p
  | KPopMpls => pop_mpls (num (snd a)) p
  | KPushPbb => push_pbb (num (snd a)) p
  | KPopPbb => pop_pbb p
  | KCopyOut => copy_ttl_out p
  | KCopyIn => copy_ttl_in p
  | KSetMplsTtl => with_top (with_mpls (on_head (set_ttl_of (num (snd a))))) p
  | KDecMplsTtl => with_top (with_mpls (on_head (fun m => set_ttl_of (dec (m_ttl m)) m))) p
  | KSetNwTtl => with_ttl (num (snd a)) p
  | KDecNwTtl => with_ttl (dec (p_ttl p)) p
  | KQueue => Pkt (p_top p) (p_inner p) (p_flat p) (p_ttl p) (Some (num (snd a)))
  | KOutput | KGroup | KOther => p
  end.

(** What an action emits. A group of type "all" or "indirect" runs every bucket on its own copy
    of the packet; the others run one bucket, chosen by the switch ([pick]). *)
Section Emit.
  Context (pick : list (list action) -> nat).
  Fixpoint emit_val (n : string) (v : aval) (p : pkt) {struct v} : list (Z * pkt) :=
    match v with
    | VInt port => match kind n with KOutput => [(port, p)] | _ => [] end
    | VGroup t buckets =>
      match kind n with
      | KGroup =>
        let outs := (fix go_b (bs : list (list (string * aval))) : list (list (Z * pkt)) :=
             match bs with
             | [] => []
             | b :: bs' => (fix go_a (b : list (string * aval)) (q : pkt) {struct b} : list (Z * pkt) :=
                    match b with
                    | [] => []
                    | (n', v') :: b' => emit_val n' v' q ++ go_a b' (rewrite_pkt (n', v') q)
                    end) b p :: go_b bs'
             end) buckets in
        if String.eqb t "all" || String.eqb t "indirect" then List.concat outs
        else nth (pick buckets) outs []
      | _ => []
      end
    | _ => []
    end.
  Definition emit (a : action) (p : pkt) : list (Z * pkt) := emit_val (fst a) (snd a) p.

  (** Running a list: the packet carrying on, and what was emitted. *)
  Fixpoint run_pkt (l : list action) (p : pkt) : pkt := match l with [] => p | a :: t => run_pkt t (rewrite_pkt a p) end.
  Fixpoint run_out (l : list action) (p : pkt) : list (Z * pkt) :=
    match l with [] => [] | a :: t => emit a p ++ run_out t (rewrite_pkt a p) end.
End Emit.

(** Packets are equal when they agree on everything that can be read. *)
Definition same_pkt (p q : pkt) : Prop :=
  p_top p = p_top q /\ p_inner p = p_inner q /\ (forall f, p_flat p f = p_flat q f) /\ p_ttl p = p_ttl q /\ p_queue p = p_queue q.
Definition same_copy (a b : Z * pkt) : Prop := fst a = fst b /\ same_pkt (snd a) (snd b).
(** The same copies, in any order. *)
Definition same_outs (a b : list (Z * pkt)) : Prop := exists c, Permutation a c /\ Forall2 same_copy c b.
Definition same_effect (pick : list (list action) -> nat) (l r : list action) : Prop :=
  forall p, same_pkt (run_pkt l p) (run_pkt r p) /\ same_outs (run_out pick l p) (run_out pick r p).
