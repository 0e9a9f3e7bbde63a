(** Specification of packets with tag stacks of any depth. A header has room for three levels of
    each tag field; the packet keeps all of them, so that what a push moves below the third level
    comes back with a pop. *)
From Verif Require Export SpecTags.
Local Open Scope string_scope.
Local Open Scope list_scope.
Local Open Scope Z_scope.

(** [tags f k j]: bit [j] of level [k] of the tag field [f]; [flat]: the bits of the other fields. *)
Record tall := Tall { flat : packet; tags : string -> nat -> Z -> bool }.
(** The tag field and level that a name stands for. *)
Definition tag_place (n : string) : option (string * nat) :=
  match find (fun f => String.eqb n f || String.eqb n (f ++ "1") || String.eqb n (f ++ "2")) (flat_map tun_fields tunnels) with
  | Some f => Some (f, if String.eqb n f then 0%nat else if String.eqb n (f ++ "1") then 1%nat else 2%nat)
  | None => None
  end.
(** The header. *)
Definition tview (T : tall) : packet := fun i =>
  match slot_at i with
  | None => flat T i
  | Some s => match tag_place (sl_name s) with Some (f, k) => tags T f k (i - sl_off s) | None => flat T i end
  end.
Definition tall_push_field (T : tall) (f : string) : tall :=
  Tall (flat T) (fun g k j =>
    if String.eqb g f then
      match k with O => tags T f 0%nat j || (String.eqb f "VLAN_VID" && (j =? 12)) | S k => tags T f k j end
    else tags T g k j).
Definition tall_pop_field (T : tall) (f : string) : tall :=
  Tall (flat T) (fun g k j => if String.eqb g f then tags T f (S k) j else tags T g k j).
Definition tall_set (n : string) (v : Z) (T : tall) : tall :=
  Tall (write_field n v None (flat T)) (fun g k j =>
    match tag_place n with
    | Some (f, d) => if String.eqb g f && Nat.eqb k d then Z.testbit v j else tags T g k j
    | None => tags T g k j
    end).
(** One action. *)
Definition tall_act (T : tall) (a : action) : tall :=
  match tag_push a with
  | Some t => fold_left tall_push_field (tun_fields t) T
  | None => match tag_pop a with
            | Some t => fold_left tall_pop_field (tun_fields t) T
            | None => match a with
                      | ("SET_FIELD", VSet f v) => tall_set f (if String.eqb f "VLAN_VID" then Z.lor (2 ^ 12) v else v) T
                      | _ => T
                      end
            end
  end.
(** The instructions of a rule; the actions in the order in which they are carried out. *)
Definition tall_inst (l : list action) (wm : option (Z * option Z)) (T : tall) : tall :=
  let T' := fold_left tall_act l T in Tall (metadata_header wm (flat T')) (tags T').
