(** What a wildcard, a match and a header mean. This file is specification only: it does
    not mention any function of the model, only the field layout and [Z.testbit]. *)
From Verif Require Export Fields.

(** A packet header: one Boolean per ternary-bit position, position 0 being the least
    significant. Only positions 0 <= i < NB matter. *)
Definition packet := Z -> bool.

(** Wildcard [w] accepts packet [p]: at every position the bit of the pair that stands for
    the packet's value is set (bit 2i allows a 0, bit 2i+1 allows a 1). *)
Definition accepts (w : Z) (p : packet) : Prop :=
  forall i, 0 <= i < NB -> Z.testbit w (2 * i + (if p i then 1 else 0)) = true.

(** No position of [w] is z (00). *)
Definition zfree (w : Z) : Prop :=
  forall i, 0 <= i < NB -> Z.testbit w (2 * i) = true \/ Z.testbit w (2 * i + 1) = true.

(** [w] is a non-negative number of 2*NB bits. *)
Definition wc_range (w : Z) : Prop := 0 <= w < 2 ^ (2 * NB).

(** A proper wildcard: right size, no z. *)
Definition wc_ok (w : Z) : Prop := wc_range w /\ zfree w.

(** Executable version of [accepts]. *)
Definition acceptsb (w : Z) (p : packet) : bool :=
  forallb (fun i => Z.testbit w (2 * i + (if p i then 1 else 0))) (seqZ (Z.to_nat NB)).

(** Bit [j] of field [s] in the packet [p]. *)
Definition field_bit (p : packet) (s : slot) (j : Z) : bool := p (sl_off s + j).

(** A packet satisfies one match item: every bit of the field that the mask selects equals
    the corresponding bit of the value. No mask selects all bits. A field that is not in the
    table is not a constraint. *)
Definition item_accepts (it : string * (Z * option Z)) (p : packet) : Prop :=
  forall s, In s layout -> sl_name s = fst it ->
  forall j, 0 <= j < sl_bits s ->
  match snd (snd it) with None => true | Some m => Z.testbit m j end = true ->
  field_bit p s j = Z.testbit (fst (snd it)) j.

(** A packet satisfies a match if it satisfies every item. *)
Definition match_accepts (ms : list (string * (Z * option Z))) (p : packet) : Prop :=
  forall it, In it ms -> item_accepts it p.

(** [w] leaves the padding positions below the fields open (11). *)
Definition padding_open (w : Z) : Prop :=
  forall b, 0 <= b < 2 * extra_padding -> Z.testbit w b = true.

(** Bit [i] of [a] is bit 2i of [m], bit [i] of [b] is bit 2i+1. *)
Definition interleaved (a b m : Z) : Prop :=
  0 <= m /\ forall i, 0 <= i -> Z.testbit m (2 * i) = Z.testbit a i /\
                                 Z.testbit m (2 * i + 1) = Z.testbit b i.

(** A match item in normal form: a real field; either no mask and a value that fits, or a mask
    that is neither empty nor full and a value inside the mask. *)
Definition item_canonical (it : string * (Z * option Z)) : Prop :=
  exists s, In s layout /\ fst it = sl_name s /\
  match snd it with
  | (v, None) => 0 <= v < 2 ^ sl_bits s
  | (v, Some m) => 0 < m < 2 ^ sl_bits s - 1 /\ 0 <= v < 2 ^ sl_bits s /\ Z.land v m = v
  end.

(** The packets a headerspace object stands for: accepted by some listed wildcard and by
    none of the wildcards subtracted from it. *)
Definition hs_accepts (h : list (Z * list Z)) (p : packet) : Prop :=
  exists w ds, In (w, ds) h /\ accepts w p /\ forall d, In d ds -> ~ accepts d p.

(** Everything inside is a proper wildcard. *)
Definition hs_ok (h : list (Z * list Z)) : Prop :=
  forall w ds, In (w, ds) h -> wc_ok w /\ forall d, In d ds -> wc_ok d.
