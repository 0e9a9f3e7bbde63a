(** Reversing the bit order of all fields. Models ofequivalence/check_equivalence.py:41-73. *)
From Verif Require Export Text Rule Merge.
Local Open Scope string_scope.
Local Open Scope list_scope.
Local Open Scope Z_scope.

(** bin(v)[2:]; for a negative number the slice starts in "-0b..." and leaves the b *)
Definition bin_tail (v : Z) : text := if v <? 0 then chr 98 :: show 2 (- v) else show 2 v.
(** int(bin(value)[2:].zfill(bits)[::-1], 2) and the assertion after it (56-57, 60-61, 67-68) *)
Definition reverse_value (bits v : Z) : result Z :=
  do w <- py_int 2 (rev (zfill (Z.to_nat bits) (bin_tail v)));
  if Z.land w (2 ^ bits - 1) =? w then Ok w else Err AssertionError.
(** 52-62, one item of the match. OF is a table of its own, without fields named at run time.
    [if mask] is false for None and 0. *)
Definition reverse_item (m : Match) (it : string * (Z * option Z * Z)) : st Match :=
  let '(field, (value, mask, _)) := it in
  if String.eqb field "VLAN_VID" then sret m else
  sdo bits <- slift (match field_bits field with Some b => Ok b | None => Err KeyError end);
  sdo new_value <- slift (reverse_value bits value);
  sdo new_mask <- (match mask with
                   | Some k => if k =? 0 then sret mask else sdo x <- slift (reverse_value bits value); sret (Some x)
                   | None => sret mask
                   end);
  s_append m field new_value new_mask.
(** 65-71, one action *)
Definition reverse_action (a : action) : result action :=
  if String.eqb (fst a) "SET_FIELD" then
    match snd a with
    | VSet f v =>
      if String.eqb f "VLAN_VID" then Ok a else
      do bits <- match field_bits f with Some b => Ok b | None => Err KeyError end;
      do w <- reverse_value bits v;
      Ok ("SET_FIELD", VSet f w)
    | _ => Err TypeError
    end
  else Ok a.
Definition reverse_actions (l : alist) : result alist := do xs <- rall (map reverse_action (al_iter l)); al_of xs.
(** 51-72, one rule. [py3]: the interpreter; Match is a dict, and Python 3's dicts have no
    iteritems. The items are those before the loop: the loop only replaces values of existing
    keys, each after it has been read. *)
Definition reverse_rule (py3 : bool) (r : rule) : st rule :=
  if py3 then slift (Err AttributeError) else
  let c := rcore r in
  sdo m <- sfold reverse_item (m_items (rmatch c)) (rmatch c);
  sdo a <- slift (reverse_actions (apply_actions (inst c)));
  let i := inst c in
  sret (mkRule (mkCore (priority c) (cookie c) m (mkInst (goto_table i) a (write_actions i) (write_metadata i) (clear_actions i) (meter i)) (table c)) (path r)).
Definition reverse_fields (py3 : bool) (rules : list rule) : st (list rule) :=
  sfold (fun done r => sdo r' <- reverse_rule py3 r; sret (done ++ [r'])) rules [].
