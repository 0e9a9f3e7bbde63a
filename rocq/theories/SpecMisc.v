(** Specifications for the memory limit, routing tables, UniqueRules and bit reversal. *)
From Verif Require Export SpecText Spec.
From Verif Require Import Unique SpecExec SpecNormalise.
Local Open Scope string_scope.
Local Open Scope list_scope.
Local Open Scope Z_scope.

(** ** Memory limit *)
(** The line mentions MemFree and its second word is the number [kb]. *)
Definition mentions (w line : list ascii) : Prop := exists a b, line = a ++ w ++ b.
Definition mem_free_line (line : list ascii) (kb : Z) : Prop :=
  mentions (list_ascii_of_string "MemFree") line /\ exists w0 w rest, spaced (w0 :: w :: rest) line /\ numeral 10 w kb.
(** What a limit has to respect when [free] bytes are available: no less than the minimum, at
    most [perc] percent and at most [res] bytes kept for others. *)
Definition respects (m_min perc res free limit : Z) : Prop :=
  m_min <= limit /\ 100 * (free - limit) <= perc * free /\ free - limit <= res.

(** ** Routing tables *)
Record route := Route { ro_octets : list Z; ro_len : Z; ro_peer : list ascii }.
(** "* a.b.c.d/len peer ..." *)
Definition route_line (r : route) (line : list ascii) : Prop :=
  exists star ws lt rest,
    spaced (star :: (separated "." ws ++ "/"%char :: lt) :: ro_peer r :: rest) line /\
    Forall2 (numeral 10) ws (ro_octets r) /\ List.length ws = 4%nat /\ Forall (fun n => 0 <= n < 256) (ro_octets r) /\
    numeral 10 lt (ro_len r) /\ ro_len r <= 32.
(** The destination address of a packet and the prefixes that contain it. *)
Definition destination (p : packet) (n : Z) : Prop :=
  0 <= n < 2 ^ 32 /\ forall s, In s layout -> sl_name s = "IPV4_DST" -> forall j, 0 <= j < 32 -> field_bit p s j = Z.testbit n j.
Definition covers (r : route) (n : Z) : Prop := n / 2 ^ (32 - ro_len r) = weigh 256 (ro_octets r) / 2 ^ (32 - ro_len r).
(** Ports are given out in order of first appearance. *)
Definition first_seen (peers : list (list ascii)) (ports : list Z) : Prop :=
  List.length ports = List.length peers /\
  forall i w k, nth_error peers i = Some w -> nth_error ports i = Some k ->
    (exists j, (j < i)%nat /\ nth_error peers j = Some w /\ nth_error ports j = Some k) \/
    (~ In w (firstn i peers) /\ k = 1 + Z.of_nat (List.length (nodup (list_eq_dec ascii_dec) (firstn i peers)))).

(** ** UniqueRules *)
(** What a program should see: identity comparison (None) inside a block, the original methods
    outside; everything up to the first exception. *)
Section Expect.
  Context {M : Type} (m : M).
  Fixpoint expect (inside : bool) (c : stmt) : list (option M) * bool :=
    match c with
    | Look => ([if inside then None else Some m], false)
    | Raise => ([], true)
    | With _ body =>
      (fix go (l : list stmt) : list (option M) * bool :=
         match l with
         | [] => ([], false)
         | c :: l' => let '(t, e) := expect true c in if e then (t, true) else let '(t', e') := go l' in (t ++ t', e')
         end) body
    end.
  Fixpoint expect_list (inside : bool) (l : list stmt) : list (option M) * bool :=
    match l with
    | [] => ([], false)
    | c :: l' => let '(t, e) := expect inside c in if e then (t, true) else let '(t', e') := expect_list inside l' in (t ++ t', e')
    end.
End Expect.
(** The objects of a program, one entry per with statement. *)
Fixpoint objects (c : stmt) : list nat :=
  match c with Look | Raise => [] | With o body => o :: flat_map objects body end.

(** ** Reversing the bit order *)
(** The [b] low bits of [v], in reverse order. *)
Fixpoint mirror (b : nat) (v : Z) : Z := match b with O => 0 | S k => (v mod 2) * 2 ^ Z.of_nat k + mirror k (v / 2) end.
Definition slot_of (f : string) : option slot := find (fun s => String.eqb (sl_name s) f) layout.
(** The value of field [f], mirrored, except VLAN_VID and unknown fields. *)
Definition mirror_field (f : string) (v : Z) : Z :=
  if String.eqb f "VLAN_VID" then v else match slot_of f with Some s => mirror (Z.to_nat (sl_bits s)) v | None => v end.
(** The header with every field mirrored in place. *)
Definition mirror_packet (p : packet) : packet := fun i =>
  match find (fun s => (sl_off s <=? i) && (i <? sl_off s + sl_bits s)) layout with
  | Some s => if String.eqb (sl_name s) "VLAN_VID" then p i else p (sl_off s + (sl_bits s - 1 - (i - sl_off s)))
  | None => p i
  end.
Definition mirror_vlan (t : vlan) : vlan := Vlan (v_tpid t) (v_vid t) (mirror_field "VLAN_PCP" (v_pcp t)).
Definition mirror_mpls (m : mpls) : mpls :=
  Mpls (mirror_field "MPLS_LABEL" (m_label m)) (mirror_field "MPLS_TC" (m_tc m)) (mirror_field "MPLS_BOS" (m_bos m)) (m_ttl m).
Definition mirror_frame (f : frame) : frame :=
  Frame (mirror_field "ETH_DST" (f_dst f)) (mirror_field "ETH_SRC" (f_src f)) (mirror_field "ETH_TYPE" (f_type f))
        (mirror_field "PBB_ISID" (f_isid f)) (f_ipcp f) (map mirror_vlan (f_vlans f)) (map mirror_mpls (f_mpls f)).
Definition mirror_pkt (p : pkt) : pkt :=
  Pkt (mirror_frame (p_top p)) (map mirror_frame (p_inner p)) (fun f => mirror_field f (p_flat p f)) (p_ttl p) (p_queue p).
(** Actions that neither write an ethertype nor contain other actions, and no PBB (the known
    hole of the dependence table). *)
Definition no_type_no_group (a : action) : Prop := ~ In (fst a) ["PUSH_MPLS"; "POP_MPLS"; "PUSH_PBB"; "POP_PBB"; "GROUP"].
Definition mirror_out (x : Z * pkt) : Z * pkt := (fst x, mirror_pkt (snd x)).
(** An item of a match, and an action, that reverse_fields handles properly: an exact value (or
    a mask of 0, which selects nothing) in the range of its field, or VLAN_VID. *)
Definition plain_item (it : string * (Z * option Z * Z)) : Prop :=
  exists s, In s layout /\ sl_name s = fst it /\
  (fst it = "VLAN_VID" \/ ((snd (fst (snd it)) = None \/ snd (fst (snd it)) = Some 0) /\ 0 <= fst (fst (snd it)) < 2 ^ sl_bits s)).
Definition plain_act (a : action) : Prop :=
  fst a = "SET_FIELD" -> exists f v s, snd a = VSet f v /\ In s layout /\ sl_name s = f /\ (f = "VLAN_VID" \/ 0 <= v < 2 ^ sl_bits s).
(** [c'] is [c] with the fields mirrored: as a match, and (for plain actions) as a program *)
Definition mirrored (c c' : rule) : Prop :=
  path c' = path c /\ priority (rcore c') = priority (rcore c) /\ table (rcore c') = table (rcore c) /\ cookie (rcore c') = cookie (rcore c) /\
  goto_table (inst (rcore c')) = goto_table (inst (rcore c)) /\ clear_actions (inst (rcore c')) = clear_actions (inst (rcore c)) /\
  (forall p, rule_accepts c' p <-> rule_accepts c (mirror_packet p)) /\
  (Forall no_type_no_group (al_iter (apply_actions (inst (rcore c)))) -> forall pick p,
    same_pkt (run_pkt (al_iter (apply_actions (inst (rcore c')))) (mirror_pkt p)) (mirror_pkt (run_pkt (al_iter (apply_actions (inst (rcore c)))) p)) /\
    same_outs (run_out pick (al_iter (apply_actions (inst (rcore c')))) (mirror_pkt p)) (map mirror_out (run_out pick (al_iter (apply_actions (inst (rcore c)))) p))).
(** the same rule as far as matching and execution can tell *)
Definition same_rule (c c' : rule) : Prop :=
  path c' = path c /\ priority (rcore c') = priority (rcore c) /\ table (rcore c') = table (rcore c) /\ cookie (rcore c') = cookie (rcore c) /\
  m_items (rmatch (rcore c')) = m_items (rmatch (rcore c)) /\ al_iter (apply_actions (inst (rcore c'))) = al_iter (apply_actions (inst (rcore c))) /\
  goto_table (inst (rcore c')) = goto_table (inst (rcore c)) /\ clear_actions (inst (rcore c')) = clear_actions (inst (rcore c)) /\
  write_actions (inst (rcore c')) = write_actions (inst (rcore c)).
