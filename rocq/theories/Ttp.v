(** Conversion of the built-in flows of a Table Type Pattern. Models ofequivalence/convert_ttp.py:28-153.
    ttp_tools is a library; its objects are modelled as records of the attributes that are read. The flows have no
    alternatives (meta objects other than "all" are unspecified, line 31), so get_flat() is the list of
    members. Not modelled: the warnings that are printed, and text in place of the number of an action other than
    SET_FIELD. *)
From Verif Require Export Rule.
Local Open Scope string_scope.
Local Open Scope list_scope.
Local Open Scope Z_scope.

(** a value of the pattern: a number, or text such as the name of a variable *)
Inductive tval := TInt (n : Z) | TText (s : string).
(** TTPAction: action, the attribute read for that action (port, ttl, ethertype or queue_id), field, value *)
Record ttp_action := TAct { ta_action : string; ta_arg : Z; ta_field : string; ta_value : tval }.
(** TTPMatch *)
Record ttp_field := TField { tf_name : string; tf_value : tval; tf_mask : option Z }.
(** TTPInstruction: instruction, the number of the table named by [table] (None: find_table finds none), actions *)
Record ttp_instruction := TInst { ti_instruction : string; ti_goto : option Z; ti_actions : list ttp_action }.
(** TTPFlow: priority, match_set, instruction_set, number of the table it is in *)
Record ttp_flow := TFlow { tl_priority : tval; tl_match : list ttp_field; tl_instructions : list ttp_instruction; tl_table : Z }.

(** convert_ttp.py:54-68 match_from_ttp *)
Fixpoint match_from_ttp (r : registry) (m : Match) (l : list ttp_field) : result (registry * Match) :=
  match l with
  | [] => Ok (r, m)
  | f :: t =>
    match tf_value f with
    | TInt v => let '(r', m') := match_append r m (tf_name f) v (tf_mask f) in match_from_ttp r' m' t
    | TText _ => Err AssertionError
    end
  end.
(** convert_ttp.py:115-152, one turn of the loop *)
Definition action_from_ttp (append : alist -> action -> result alist) (ret : alist) (a : ttp_action) : result alist :=
  let n := ta_action a in
  if String.eqb n "OUTPUT" then append ret ("OUTPUT", VInt (ta_arg a))
  else if String.eqb n "COPY_TTL_OUT" then append ret ("COPY_TTL_OUT", VNone)
  else if String.eqb n "COPY_TTL_IN" then append ret ("COPY_TTL_IN", VNone)
  else if String.eqb n "SET_MPLS_TTL" then append ret ("SET_MPLS_TTL", VInt (ta_arg a))
  else if String.eqb n "DEC_MPLS_TTL" then append ret ("DEC_MPLS_TTL", VNone)
  else if String.eqb n "PUSH_VLAN" then append ret ("PUSH_VLAN", VInt (ta_arg a))
  else if String.eqb n "POP_VLAN" then append ret ("POP_VLAN", VNone)
  else if String.eqb n "PUSH_MPLS" then append ret ("PUSH_MPLS", VInt (ta_arg a))
  else if String.eqb n "POP_MPLS" then append ret ("POP_MPLS", VInt (ta_arg a))
  else if String.eqb n "SET_QUEUE" then append ret ("SET_QUEUE", VInt (ta_arg a))
  else if String.eqb n "GROUP" then Err NotImplementedError
  else if String.eqb n "SET_NW_TTL" then append ret ("SET_NW_TTL", VInt (ta_arg a))
  else if String.eqb n "DEC_NW_TTL" then append ret ("DEC_NW_TTL", VNone)
  else if String.eqb n "SET_FIELD" then
    if negb (String.prefix "$" (ta_field a)) then
      match ta_value a with
      | TInt v => append ret ("SET_FIELD", VSet (ta_field a) v)
      | TText _ => Ok ret
      end
    else Ok ret
  else if String.eqb n "PUSH_PBB" then append ret ("PUSH_PBB", VInt (ta_arg a))
  else if String.eqb n "POP_PBB" then append ret ("POP_PBB", VNone)
  else Ok ret.
(** convert_ttp.py:99-153 actions_from_ttp; [append] is that of the ActionSet or the ActionList *)
Definition actions_from_ttp (append : alist -> action -> result alist) (l : list ttp_action) : result alist :=
  rfold (action_from_ttp append) l al_empty.
(** convert_ttp.py:80-92, one turn of the loop *)
Definition instruction_from_ttp (ret : instructions) (i : ttp_instruction) : result instructions :=
  let n := ti_instruction i in
  if String.eqb n "GOTO_TABLE" then
    match ti_goto i with
    | None => Err AttributeError
    | Some t => Ok (mkInst (Some t) (apply_actions ret) (write_actions ret) (write_metadata ret) (clear_actions ret) (meter ret))
    end
  else if String.eqb n "CLEAR_ACTIONS" then
    Ok (mkInst (goto_table ret) (apply_actions ret) (write_actions ret) (write_metadata ret) true (meter ret))
  else if String.eqb n "APPLY_ACTIONS" then
    do s <- actions_from_ttp al_append (ti_actions i);
    Ok (mkInst (goto_table ret) s (write_actions ret) (write_metadata ret) (clear_actions ret) (meter ret))
  else if String.eqb n "WRITE_ACTIONS" then
    do s <- actions_from_ttp as_append (ti_actions i);
    Ok (mkInst (goto_table ret) (apply_actions ret) s (write_metadata ret) (clear_actions ret) (meter ret))
  else Err NotImplementedError.
(** convert_ttp.py:71-96 instructions_from_ttp *)
Definition instructions_from_ttp (l : list ttp_instruction) : result instructions := rfold instruction_from_ttp l inst_empty.
(** convert_ttp.py:28-51 rule_from_ttp *)
Definition rule_from_ttp (r : registry) (f : ttp_flow) : result (registry * core) :=
  match tl_priority f with
  | TText _ => Err AssertionError
  | TInt p =>
    do (r', m) <- match_from_ttp r match_new (tl_match f);
    do i <- instructions_from_ttp (tl_instructions f);
    Ok (r', mkCore p None m i (tl_table f))
  end.
