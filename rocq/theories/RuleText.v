(** The text of a whole rule: [ActionList.__str__] (/repo/ofequivalence/rule.py:822-823),
    [Instructions.__str__] (rule.py:935-950) and [Rule.__str__] (rule.py:305-309) with
    [Match.__str__] of MatchText.v.

    Simplifications: Python 3; actions other than GROUP; names without quotes or
    backslashes, so that [repr] of a name puts it in single quotes.  An action list is the
    list that iterating over it gives (rule.py:494-498). *)
From Verif Require Import Base Text Format MatchText PathText.
Open Scope Z_scope.

(** The value of an action: none, a number, or for SET_FIELD a field and a number. *)
Inductive aval : Set := ANone | ANum (z : Z) | AField (name : text) (z : Z).
Definition action : Set := text * aval.

(** str of an int, and of an int or None. *)
Definition num (z : Z) : text := format_num 10 0 z.
Definition opt_num (z : option Z) : text := match z with Some v => num v | None => T "None" end.

Definition quoted (n : text) : text := T "'" ++ n ++ T "'".

(** str of a value in a tuple. *)
Definition aval_str (v : aval) : text :=
  match v with
  | ANone => T "None"
  | ANum z => num z
  | AField n z => T "(" ++ quoted n ++ T ", " ++ num z ++ T ")"
  end.

(** str(x) of an action, a tuple (rule.py:823). *)
Definition action_str (a : action) : text := T "(" ++ quoted (fst a) ++ T ", " ++ aval_str (snd a) ++ T ")".

(** rule.py:822-823. *)
Definition actions_str (l : list action) : text := T "[" ++ join (T ",") (map action_str l) ++ T "]".

(** rule.py:885-890. *)
Record instr : Set := Instr
  { i_goto : option Z; i_apply : list action; i_write : list action;
    i_metadata : option (Z * option Z); i_clear : bool; i_meter : option Z }.

(** rule.py:936-948: the list [ret]; an action list is true if it is not empty.
    clear_actions is True or None (rule.py:888). *)
Definition instr_parts (i : instr) : list text :=
  match i_goto i with Some z => [T "goto_table=" ++ num z] | None => [] end ++
  match i_apply i with [] => [] | l => [T "apply_actions=" ++ actions_str l] end ++
  match i_write i with [] => [] | l => [T "write_actions=" ++ actions_str l] end ++
  match i_metadata i with
  | Some (v, m) => [T "write_metadata=" ++ T "(" ++ num v ++ T ", " ++ opt_num m ++ T ")"]
  | None => []
  end ++
  (if i_clear i then [T "clear_actions"] else []) ++
  match i_meter i with Some z => [T "meter=" ++ num z] | None => [] end.

(** rule.py:935-950. *)
Definition instr_str (i : instr) : text := T "Instructions[" ++ join (T ",") (instr_parts i) ++ T "]".

Record trule : Set := TRule
  { t_priority : Z; t_cookie : option Z; t_match : entries; t_instr : instr; t_table : Z }.

(** The parts that Rule.__str__ puts together (rule.py:305-309). *)
Definition show_rule (fmt : text -> option kind) (r : trule) : result shown :=
  do m <- match_str fmt (t_match r);
  Ok (Shown (num (t_priority r)) (opt_num (t_cookie r)) m (instr_str (t_instr r)) (num (t_table r))).
