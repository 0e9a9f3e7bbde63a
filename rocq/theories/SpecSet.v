(** Specification of OpenFlow action sets: what a set holds after a sequence of writes, and the
    order in which it is executed (openflow_desc.py:275-293 quotes the order). *)
From Coq Require Export Sorted.
From Verif Require Export Actions.
Local Open Scope string_scope.
Local Open Scope list_scope.
Local Open Scope Z_scope.

(** The place in the set that an action occupies: one per field for SET_FIELD, one shared by
    OUTPUT and GROUP, one for each other type. *)
Inductive aslot := SField (f : string) | SFwd | SName (n : string).
Definition slot_of (a : action) : aslot :=
  let (n, v) := a in
  if String.eqb n "SET_FIELD" then match v with VSet f _ => SField f | _ => SName n end
  else if String.eqb n "OUTPUT" || String.eqb n "GROUP" then SFwd else SName n.
Definition slot_eqb (s t : aslot) : bool :=
  match s, t with
  | SField f, SField g => String.eqb f g
  | SFwd, SFwd => true
  | SName n, SName m => String.eqb n m
  | _, _ => false
  end.
Definition is_name (n : string) (a : action) : bool := String.eqb (fst a) n.
(** what the set holds after the writes [xs]: of each kind of action the
    latest one; a GROUP hides every OUTPUT *)
Definition latest (p : action -> bool) (xs : list action) : option action := find p (rev xs).
Definition winner (xs : list action) (a : action) : Prop :=
  match slot_of a with
  | SFwd => if existsb (is_name "GROUP") xs then latest (is_name "GROUP") xs = Some a else latest (is_name "OUTPUT") xs = Some a
  | s => latest (fun b => slot_eqb (slot_of b) s) xs = Some a
  end.
(** The order of OpenFlow 1.3.5, 5.10: copy TTL inwards, pops, push MPLS, push PBB, push VLAN, copy
    TTL outwards, decrement TTL, set (fields, TTLs), queue, group, output. *)
Definition exec_order : list string :=
  ["COPY_TTL_IN"; "POP_VLAN"; "POP_PBB"; "POP_MPLS"; "PUSH_MPLS"; "PUSH_PBB"; "PUSH_VLAN";
   "COPY_TTL_OUT"; "DEC_MPLS_TTL"; "DEC_NW_TTL"; "SET_FIELD"; "SET_MPLS_TTL"; "SET_NW_TTL";
   "SET_QUEUE"; "GROUP"; "OUTPUT"].
Definition set_key (a : action) : option nat := index_str (fst a) exec_order 0.
Definition key_le (a b : action) : Prop :=
  match set_key a, set_key b with Some i, Some j => (i <= j)%nat | _, _ => False end.
(** sorted by the execution order, one action of each kind *)
Definition ordered (o : list action) : Prop := StronglySorted key_le o.

(** [o] is the set written by [ws], in an order of execution. *)
Definition set_list (ws o : list action) : Prop :=
  NoDup (map slot_of o) /\ (forall a, In a o <-> winner ws a) /\ ordered o.
