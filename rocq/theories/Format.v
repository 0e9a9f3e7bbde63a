(** Formatting and parsing of numbers and addresses. Models ofequivalence/format_utils.py and
    the AlphaInt class of utils.py:195-213. *)
From Verif Require Export Text.
Local Open Scope list_scope.
Local Open Scope Z_scope.

Definition colon : ascii := ":".
Definition dot : ascii := ".".
Definition dash : ascii := "-".

(** "{}/{}".format(value, mask) around each formatter *)
Definition with_mask (f : Z -> result text) (value : Z) (mask : option Z) : result text :=
  match mask with
  | None => f value
  | Some m => do v <- f value; do k <- f m; Ok (v ++ T "/" ++ k)
  end.
(** format_utils.py:26-30 *)
Definition format_decimal : Z -> option Z -> result text := with_mask (fun v => Ok (format_num 10 0 v)).
(** format_utils.py:33-37. "0x{:x}" of a negative number is "0x-1". *)
Definition format_hex : Z -> option Z -> result text := with_mask (fun v => Ok (T "0x" ++ format_num 16 0 v)).
(** format_utils.py:40-46 *)
Definition format_ethernet : Z -> option Z -> result text :=
  with_mask (fun v => Ok (join (T ":") (pairs (format_num 16 12 v)))).
(** format_utils.py:49-55 *)
Definition format_ipv6 : Z -> option Z -> result text :=
  with_mask (fun v => Ok (join (T ":") (pairs (format_num 16 32 v)))).
(** format_utils.py:58-64 *)
Definition ipv4_text (v : Z) : result text :=
  do parts <- rall (map (fun x => do n <- py_int 16 x; Ok (format_num 10 0 n)) (pairs (format_num 16 8 v)));
  Ok (join (T ".") parts).
Definition format_ipv4 : Z -> option Z -> result text := with_mask ipv4_text.

(** The str/bytes part of normalise_bytes, format_utils.py:77-117 (None and ints are returned
    as they are, lines 79-81 and 120; Python 3). *)
(** v2.replace(b'::', b':::', 1) *)
Fixpoint stretch (s : text) : text :=
  match s with
  | a :: ((b :: _) as t) => if Ascii.eqb a colon && Ascii.eqb b colon then colon :: a :: t else a :: stretch t
  | _ => s
  end.
(** lines 90-91. Every round adds one part when "::" occurs. *)
Fixpoint widen (fuel : nat) (v2 : text) : result text :=
  if Nat.ltb (List.length (split colon v2)) 8 then
    match fuel with O => Err OutOfFuel | S f => widen f (stretch v2) end
  else Ok v2.
(** lines 92-101 *)
Fixpoint read_groups (parts : list text) (res shift : Z) : result Z :=
  match parts with
  | [] => Ok res
  | part :: t =>
    do n <- py_int 16 (match part with [] => T "0" | _ => part end);
    if n <=? 0xFFFF then read_groups t (Z.lor res (Z.shiftl n shift)) (shift - 16) else Err AssertionError
  end.
Definition parse_ipv6 (value : text) : result Z :=
  do v2 <- widen 8 value;
  let parts := split colon v2 in
  if Nat.eqb (List.length parts) 8 then read_groups parts 0 112 else Err AssertionError.
(** lines 103-108 *)
Definition parse_ipv4 (p0 p1 p2 p3 : text) : result Z :=
  do a <- py_int 10 p0; do b <- py_int 10 p1; do c <- py_int 10 p2; do d <- py_int 10 p3;
  if Z.lor (Z.lor (Z.lor a b) c) d <=? 0xFF
  then Ok (Z.lor (Z.lor (Z.lor (Z.shiftl a 24) (Z.shiftl b 16)) (Z.shiftl c 8)) d)
  else Err AssertionError.
Definition normalise_bytes (value : text) : result Z :=
  let by_colon := split colon value in
  if Nat.eqb (List.length by_colon) 8 || (Nat.leb 3 (List.length by_colon) && contains (T "::") value)
  then parse_ipv6 value
  else match split dot value with
  | [p0; p1; p2; p3] => parse_ipv4 p0 p1 p2 p3
  | _ =>
    if Nat.eqb (List.length by_colon) 6 then py_int 16 (List.concat by_colon)
    else if Nat.eqb (List.length (split dash value)) 6 then py_int 16 (List.concat (split dash value))
    else Ok (from_bytes value)
  end.
(** format_utils.py:123-128 *)
Definition normalise_string (value : text) : result Z :=
  match py_int 0 value with
  | Err ValueError => normalise_bytes value
  | r => r
  end.

(** utils.py:203-211 AlphaInt.__format__ with 'z'. The loop ends because [value] shrinks. *)
Fixpoint alpha_loop (fuel : nat) (value : Z) (ret : text) : result text :=
  if 0 <=? value then
    match fuel with
    | O => Err OutOfFuel
    | S f => alpha_loop f (value / 26 - 1) (chr (97 + value mod 26) :: ret)
    end
  else Ok ret.
Definition alpha_z (n : Z) : result text := alpha_loop (S (Z.to_nat n)) n [].
(** str.upper() of a-z (line 211) *)
Definition upper (c : ascii) : ascii := if (97 <=? ord c) && (ord c <=? 122) then chr (ord c - 32) else c.
Definition alpha_Z (n : Z) : result text := rmap (map upper) (alpha_z n).
