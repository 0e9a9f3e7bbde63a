(** Wildcards as strings. Models ofequivalence/headerspace.py, wildcard_to_tint and
    flow_wildcard_to_string; wc_int_to_string has the same loop. The text of a number built from
    words (headerspace.py:182-194, used with the former C library) is left out: a wildcard is always
    an integer now. *)
From Verif Require Export Wildcard.
Local Open Scope string_scope.
Local Open Scope Z_scope.

(** 307-318 (and 121-132): [while value], two bits at a time; the string is reversed at the end,
    so each character goes in front. The fuel is the number of tbits of the field. *)
Definition part_char (part : Z) : ascii :=
  if part =? 1 then "0"%char else if part =? 2 then "1"%char else "x"%char.
Fixpoint parts_string (fuel : nat) (value : Z) (as_str : string) : result string :=
  if value =? 0 then Ok as_str else
  match fuel with
  | O => Err OutOfFuel
  | S fuel =>
    let part := Z.land value 3 in
    if part =? 0 then Err AssertionError
    else parts_string fuel (Z.shiftr value 2) (String (part_char part) as_str)
  end.
(** 173-180 wildcard_to_tint *)
Definition wildcard_to_tint (wc : Z) : result Z :=
  let mask := Z.shiftl 1 (extra_padding * 2) - 1 in
  if Z.land mask wc =? mask then Ok (Z.shiftr wc (extra_padding * 2)) else Err AssertionError.
(** 301-319: one field after the other, from the last one *)
Fixpoint fields_strings (fields : list slot) (full_tint : Z) : result (list string) :=
  match fields with
  | [] => Ok []
  | s :: r =>
    let mask := Z.shiftl 1 (sl_bits s * 2) - 1 in
    do as_str <- parts_string (Z.to_nat (sl_bits s)) (Z.land mask full_tint) "";
    do res <- fields_strings r (Z.shiftr full_tint (sl_bits s * 2));
    Ok ((sl_name s ++ "=" ++ as_str)%string :: res)
  end.
(** 295-322 flow_wildcard_to_string *)
Definition flow_wildcard_to_string (wc : Z) : result string :=
  do full_tint <- wildcard_to_tint wc;
  do res <- fields_strings layout full_tint;
  Ok (String.concat ", " res).
