(** Specification: the numbers that texts stand for. Independent of the model in Text.v. *)
From Coq Require Export List ZArith String Ascii.
From Coq Require Import Lia.
Export ListNotations.
Open Scope list_scope.
Open Scope Z_scope.

(** The digits 0-9, a-f, A-F and their values. *)
Definition digit_table : list (ascii * Z) :=
  [("0", 0); ("1", 1); ("2", 2); ("3", 3); ("4", 4); ("5", 5); ("6", 6); ("7", 7); ("8", 8); ("9", 9);
   ("a", 10); ("b", 11); ("c", 12); ("d", 13); ("e", 14); ("f", 15);
   ("A", 10); ("B", 11); ("C", 12); ("D", 13); ("E", 14); ("F", 15)]%char.
(** [numeral base s n]: the non-empty text [s] of digits below [base] stands for [n]. *)
Inductive numeral (base : Z) : list ascii -> Z -> Prop :=
| num_one c d : In (c, d) digit_table -> d < base -> numeral base [c] d
| num_more s n c d : numeral base s n -> In (c, d) digit_table -> d < base -> numeral base (s ++ [c]) (n * base + d).
Definition no_leading_zero (s : list ascii) : Prop := s = ["0"%char] \/ hd "0"%char s <> "0"%char.
Definition lower_case (s : list ascii) : Prop := Forall (fun c => ~ In c ["A"; "B"; "C"; "D"; "E"; "F"]%char) s.

(** Words with a separator between them. *)
Fixpoint separated (sep : ascii) (l : list (list ascii)) : list ascii :=
  match l with
  | [] => []
  | x :: t => x ++ match t with [] => [] | _ => sep :: separated sep t end
  end.
(** The number with the given base-[base] digits, most significant first. *)
Definition weigh (base : Z) (l : list Z) : Z := fold_left (fun acc d => acc * base + d) l 0.

(** Words over a-z, and their order: shorter words first, words of one length alphabetically. *)
Definition letter (k : nat) : ascii := ascii_of_nat (97 + k).
Definition is_word (w : list ascii) : Prop := w <> [] /\ Forall (fun c => exists k, (k < 26)%nat /\ c = letter k) w.
Inductive alphabetic : list ascii -> list ascii -> Prop :=
| alpha_here a b u v : (nat_of_ascii a < nat_of_ascii b)%nat -> alphabetic (a :: u) (b :: v)
| alpha_later a u v : alphabetic u v -> alphabetic (a :: u) (a :: v).
Definition earlier_word (u v : list ascii) : Prop :=
  (List.length u < List.length v)%nat \/ (List.length u = List.length v /\ alphabetic u v).

(** Words separated by white space: any amount of it around and between them. *)
Definition blank (c : ascii) : Prop := In (nat_of_ascii c) [9; 10; 11; 12; 13; 32]%nat.
Inductive spaced : list (list ascii) -> list ascii -> Prop :=
| sp_none s : Forall blank s -> spaced [] s
| sp_last s w s' : Forall blank s -> w <> [] -> Forall (fun c => ~ blank c) w -> Forall blank s' -> spaced [w] (s ++ w ++ s')
| sp_word s w c l t : Forall blank s -> w <> [] -> Forall (fun c => ~ blank c) w -> blank c -> spaced l t -> spaced (w :: l) (s ++ w ++ c :: t).
