(** Specification of tag operations on headers: level 0 of a tag field is the outermost tag, levels
    1 and 2 (e.g. VLAN_VID1, VLAN_VID2) the ones inside it. *)
From Verif Require Export SpecPipeline.
Local Open Scope string_scope.
Local Open Scope list_scope.
Local Open Scope Z_scope.

Definition slot_named (n : string) : option slot := find (fun s => String.eqb (sl_name s) n) layout.
(** Bit [j] of the named field. *)
Definition fbit (p : packet) (n : string) (j : Z) : bool :=
  match slot_named n with Some s => p (sl_off s + j) | None => false end.

(** One field of a pushed tag: the levels move inwards; the new outermost value is the old one
    (0 if there was no such tag), with the present bit in the case of VLAN_VID. *)
Definition push_field (f : string) (p : packet) : packet := fun i =>
  match slot_at i with
  | None => p i
  | Some s =>
    let j := i - sl_off s in
    if String.eqb (sl_name s) f then fbit p f j || (String.eqb f "VLAN_VID" && (j =? 12))
    else if String.eqb (sl_name s) (f ++ "1") then fbit p f j
    else if String.eqb (sl_name s) (f ++ "2") then fbit p (f ++ "1") j
    else p i
  end.
(** One field of a popped tag: the levels move outwards; what comes to level 2 is not part of
    the header modelled ([below]). *)
Definition pop_field (below : packet) (f : string) (p : packet) : packet := fun i =>
  match slot_at i with
  | None => p i
  | Some s =>
    let j := i - sl_off s in
    if String.eqb (sl_name s) f then fbit p (f ++ "1") j
    else if String.eqb (sl_name s) (f ++ "1") then fbit p (f ++ "2") j
    else if String.eqb (sl_name s) (f ++ "2") then below i
    else p i
  end.
(** One action, on a header; [below] supplies the bits of deeper tags. *)
Definition tag_header (below : packet) (a : action) (p : packet) : packet :=
  match find (fun t => String.eqb (tun_push t) (fst a)) tunnels with
  | Some t => fold_left (fun q f => push_field f q) (tun_fields t) p
  | None => match find (fun t => String.eqb (tun_pop t) (fst a)) tunnels with
            | Some t => fold_left (fun q f => pop_field below f q) (tun_fields t) p
            | None => act_header a p
            end
  end.
(** The fields of tags. *)
Definition tag_field (f : string) : Prop := exists t, In t tunnels /\ In f (tun_fields t).

(** ** Rules whose tag operations can be followed *)
Definition tag_push (a : action) : option tunnel := find (fun t => String.eqb (tun_push t) (fst a)) tunnels.
Definition tag_pop (a : action) : option tunnel := find (fun t => String.eqb (tun_pop t) (fst a)) tunnels.
(** [K]: the fields whose outermost value is known exactly; [D]: how many tags of a kind have been
    pushed. A push needs the values it copies, and at most two tags of a kind on top of those
    matched on; a pop needs that at most one was pushed; what it uncovers is not known. *)
Fixpoint tame (K : string -> Prop) (D : string -> Z) (l : list action) : Prop :=
  match l with
  | [] => True
  | a :: l =>
    match tag_push a with
    | Some t => D (tun_push t) < 2 /\ (forall f, In f (tun_fields t) -> K f) /\
                tame K (fun n => if String.eqb n (tun_push t) then D n + 1 else D n) l
    | None =>
      match tag_pop a with
      | Some t => D (tun_push t) < 2 /\
                  tame (fun f => K f /\ ~ In f (tun_fields t)) (fun n => if String.eqb n (tun_push t) then 0 else D n) l
      | None => if String.eqb (fst a) "SET_FIELD" then
                  exists f v, snd a = VSet f v /\ (exists s, In s layout /\ sl_name s = f) /\ ~ inner_field f /\
                  tame (fun g => K g \/ g = f) D l
                else tame K D l
      end
    end
  end.
(** The fields that a match fixes. *)
Definition fixed_by (items : list (string * (Z * option Z))) (f : string) : Prop := exists v, In (f, (v, None)) items.
