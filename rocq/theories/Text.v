(** Byte strings and the few Python text operations that the modelled code uses: bytes.split,
    join, replace, find, int(), format(). No file of the repository is modelled here; the
    comments cite the Python operations. A str is its latin-1 bytes. *)
From Verif Require Export Base.
Local Open Scope list_scope.
Local Open Scope Z_scope.

Notation text := (list ascii).
Definition T (s : string) : text := list_ascii_of_string s.
Definition ord (c : ascii) : Z := Z.of_N (N_of_ascii c).
Definition chr (n : Z) : ascii := ascii_of_N (Z.to_N n).
Fixpoint text_eqb (a b : text) : bool :=
  match a, b with
  | [], [] => true
  | x :: a', y :: b' => Ascii.eqb x y && text_eqb a' b'
  | _, _ => false
  end.

(** s.split(sep) for a one byte separator: never empty *)
Fixpoint split (sep : ascii) (s : text) : list text :=
  match s with
  | [] => [[]]
  | x :: t => if Ascii.eqb x sep then [] :: split sep t
              else match split sep t with [] => [[x]] | w :: r => (x :: w) :: r end
  end.
(** sep.join(l) *)
Fixpoint join (sep : text) (l : list text) : text :=
  match l with
  | [] => []
  | [x] => x
  | x :: t => x ++ sep ++ join sep t
  end.
(** Python's ASCII white space (bytes.split(), int()) *)
Definition is_space (c : ascii) : bool := (ord c =? 32) || ((9 <=? ord c) && (ord c <=? 13)).
(** s.split(): [cur] is the word being read *)
Fixpoint words_from (cur : text) (s : text) : list text :=
  match s with
  | [] => match cur with [] => [] | _ => [cur] end
  | x :: t => if is_space x then match cur with [] => words_from [] t | _ => cur :: words_from [] t end
              else words_from (cur ++ [x]) t
  end.
Definition words (s : text) : list text := words_from [] s.
(** sub in s *)
Fixpoint is_prefix (p s : text) : bool :=
  match p, s with
  | [], _ => true
  | x :: p', y :: s' => Ascii.eqb x y && is_prefix p' s'
  | _, [] => false
  end.
Fixpoint contains (p s : text) : bool :=
  is_prefix p s || match s with [] => false | _ :: t => contains p t end.

(** re.findall('..', s): consecutive pairs of characters. ('.' does not match a newline, which
    no formatted number contains.) *)
Fixpoint pairs (s : text) : list text :=
  match s with
  | a :: b :: t => [a; b] :: pairs t
  | _ => []
  end.

(** int(s, base): optional white space around, sign, base prefix, digits with single
    underscores between them; anything else is a ValueError. *)
Definition digit_val (c : ascii) : option Z :=
  let n := ord c in
  if (48 <=? n) && (n <=? 57) then Some (n - 48)
  else if (97 <=? n) && (n <=? 122) then Some (n - 87)
  else if (65 <=? n) && (n <=? 90) then Some (n - 55)
  else None.
Fixpoint read_digits (base acc : Z) (prev : bool) (s : text) : option Z :=
  match s with
  | [] => if prev then Some acc else None
  | c :: t =>
    if ord c =? 95 then (if prev then read_digits base acc false t else None)
    else match digit_val c with
         | Some d => if d <? base then read_digits base (acc * base + d) true t else None
         | None => None
         end
  end.
Fixpoint drop_space (s : text) : text :=
  match s with [] => [] | c :: t => if is_space c then drop_space t else s end.
Definition strip (s : text) : text := rev (drop_space (rev (drop_space s))).
Definition after_prefix (s : text) : text :=
  match s with c :: t => if ord c =? 95 then t else s | [] => [] end.
(** the digits after the sign *)
Definition read_unsigned (base : Z) (s : text) : option Z :=
  match s with
  | z :: x :: t =>
    let k := ord x in
    let is_x := (k =? 120) || (k =? 88) in
    let is_o := (k =? 111) || (k =? 79) in
    let is_b := (k =? 98) || (k =? 66) in
    if (ord z =? 48) && (is_x && ((base =? 16) || (base =? 0))) then read_digits 16 0 false (after_prefix t)
    else if (ord z =? 48) && (is_o && ((base =? 8) || (base =? 0))) then read_digits 8 0 false (after_prefix t)
    else if (ord z =? 48) && (is_b && ((base =? 2) || (base =? 0))) then read_digits 2 0 false (after_prefix t)
    else if base =? 0 then
      match read_digits 10 0 false s with
      | Some v => if (ord z =? 48) && negb (v =? 0) then None else Some v
      | None => None
      end
    else read_digits base 0 false s
  | _ => read_digits (if base =? 0 then 10 else base) 0 false s
  end.
Definition py_int (base : Z) (s : text) : result Z :=
  match strip s with
  | c :: t =>
    match (if ord c =? 45 then option_map Z.opp (read_unsigned base t)
           else if ord c =? 43 then read_unsigned base t
           else read_unsigned base (c :: t)) with
    | Some v => Ok v
    | None => Err ValueError
    end
  | [] => Err ValueError
  end.

(** int.from_bytes(s, 'big') *)
Definition from_bytes (s : text) : Z := fold_left (fun acc c => acc * 256 + ord c) s 0.

(** Digits of a number, most significant first: format(n, 'd'), format(n, 'x'), bin(n). *)
Definition digit_chr (d : Z) : ascii := chr (if d <? 10 then 48 + d else 87 + d).
Fixpoint digits_fuel (fuel : nat) (base n : Z) (acc : list Z) : list Z :=
  match fuel with
  | O => acc
  | S f => if n <? base then n :: acc else digits_fuel f base (n / base) (n mod base :: acc)
  end.
Definition digits_of (base n : Z) : list Z := digits_fuel (S (Z.to_nat (Z.log2 n))) base n [].
Definition show (base n : Z) : text := map digit_chr (digits_of base n).
(** format(n, '0<w>x') and the like: the sign counts in the width *)
Definition zfill (w : nat) (s : text) : text := repeat (chr 48) (w - List.length s) ++ s.
Definition format_num (base : Z) (w : nat) (n : Z) : text :=
  if n <? 0 then chr 45 :: zfill (w - 1) (show base (- n)) else zfill w (show base n).
