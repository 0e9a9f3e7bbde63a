(** Ternary wildcards. Models ofequivalence/headerspace.py and c_src/utils.c.

    A wildcard is an integer with two bits per ternary bit (tbit):
    01 = zero, 10 = one, 11 = any (x), 00 = empty (z). Python's unbounded integers
    (int or gmpy2.mpz) are [Z]; [&], [|], [~], [<<], [>>] are the two's complement
    operations [Z.land], [Z.lor], [Z.lnot], [Z.shiftl], [Z.shiftr]. *)
From Verif Require Export Fields.

(** headerspace.py:74-87 - ODD_MASKS[k]: the k-fold iteration of [(m << 2) | 1] from 0.
    The Python table stops at 2024 entries; the index used is always NB = 1584. *)
Fixpoint odd_mask (k : nat) : Z :=
  match k with O => 0 | S k' => Z.lor (Z.shiftl (odd_mask k') 2) 1 end.
(** headerspace.py:85 *)
Definition even_mask (k : nat) : Z := Z.shiftl (odd_mask k) 1.
Definition ODD_MASK : Z := odd_mask (Z.to_nat NB).
Definition EVEN_MASK : Z := even_mask (Z.to_nat NB).

(** headerspace.py:90-95 wildcard_intersect *)
Definition wildcard_intersect (first second : Z) : Z :=
  let ret := Z.land first second in
  if Z.eqb (Z.land (Z.land (Z.lnot ret) (Z.shiftr (Z.lnot ret) 1)) ODD_MASK) 0
  then ret else 0.

(** headerspace.py:98-102 wildcard_is_subset *)
Definition wildcard_is_subset (first second : Z) : bool :=
  Z.eqb (Z.land first (Z.lnot second)) 0.

(** headerspace.py:105-113 wildcard_union_cover *)
Definition wildcard_union_cover (left right : Z) : Z := Z.lor left right.

(** headerspace.py:262 WC_FULLWC *)
Definition WC_FULLWC : Z := Z.shiftl 1 (bytes_needed * 16) - 1.

(** headerspace.py:335-337 get_wildcard_mask *)
Definition get_wildcard_mask (wc : Z) : Z :=
  Z.land (Z.land wc (Z.shiftr wc 1)) ODD_MASK.

(** headerspace.py:325-332 flow_wildcard_zero / flow_wildcard_one *)
Definition flow_wildcard_zero : Z :=
  Z.lor ODD_MASK (Z.shiftl 1 (extra_padding * 2) - 1).
Definition flow_wildcard_one : Z :=
  Z.lor EVEN_MASK (Z.shiftl 1 (extra_padding * 2) - 1).

(** headerspace.py:197-209 compress_wildcard_list: positions to pop, then filter.
    [i] ranges over all positions and [j] over the later ones. *)
Fixpoint cwl_inner (i : nat) (x : Z) (j : nat) (rest : list Z) : list nat :=
  match rest with
  | [] => []
  | y :: rest' =>
    (if wildcard_is_subset x y then [i]
     else if wildcard_is_subset y x then [j] else [])
      ++ cwl_inner i x (S j) rest'
  end.
Fixpoint cwl_outer (i : nat) (l : list Z) : list nat :=
  match l with
  | [] => []
  | x :: rest => cwl_inner i x (S i) rest ++ cwl_outer (S i) rest
  end.
Fixpoint cwl_filter (pop : list nat) (k : nat) (l : list Z) : list Z :=
  match l with
  | [] => []
  | x :: rest =>
    if existsb (Nat.eqb k) pop then cwl_filter pop (S k) rest
    else x :: cwl_filter pop (S k) rest
  end.
Definition compress_wildcard_list (l : list Z) : list Z :=
  cwl_filter (cwl_outer 0 l) 0 l.

(** ** Morton numbers *)

(** headerspace.py:212-245 and c_src/utils.c:147-177 (the two tables are identical). *)
Definition MortonTable256 : list Z :=
  [
    0; 1; 4; 5; 16; 17; 20; 21; 64; 65; 68; 69; 80; 81; 84; 85;
    256; 257; 260; 261; 272; 273; 276; 277; 320; 321; 324; 325; 336; 337; 340; 341;
    1024; 1025; 1028; 1029; 1040; 1041; 1044; 1045; 1088; 1089; 1092; 1093; 1104; 1105; 1108; 1109;
    1280; 1281; 1284; 1285; 1296; 1297; 1300; 1301; 1344; 1345; 1348; 1349; 1360; 1361; 1364; 1365;
    4096; 4097; 4100; 4101; 4112; 4113; 4116; 4117; 4160; 4161; 4164; 4165; 4176; 4177; 4180; 4181;
    4352; 4353; 4356; 4357; 4368; 4369; 4372; 4373; 4416; 4417; 4420; 4421; 4432; 4433; 4436; 4437;
    5120; 5121; 5124; 5125; 5136; 5137; 5140; 5141; 5184; 5185; 5188; 5189; 5200; 5201; 5204; 5205;
    5376; 5377; 5380; 5381; 5392; 5393; 5396; 5397; 5440; 5441; 5444; 5445; 5456; 5457; 5460; 5461;
    16384; 16385; 16388; 16389; 16400; 16401; 16404; 16405; 16448; 16449; 16452; 16453; 16464; 16465; 16468; 16469;
    16640; 16641; 16644; 16645; 16656; 16657; 16660; 16661; 16704; 16705; 16708; 16709; 16720; 16721; 16724; 16725;
    17408; 17409; 17412; 17413; 17424; 17425; 17428; 17429; 17472; 17473; 17476; 17477; 17488; 17489; 17492; 17493;
    17664; 17665; 17668; 17669; 17680; 17681; 17684; 17685; 17728; 17729; 17732; 17733; 17744; 17745; 17748; 17749;
    20480; 20481; 20484; 20485; 20496; 20497; 20500; 20501; 20544; 20545; 20548; 20549; 20560; 20561; 20564; 20565;
    20736; 20737; 20740; 20741; 20752; 20753; 20756; 20757; 20800; 20801; 20804; 20805; 20816; 20817; 20820; 20821;
    21504; 21505; 21508; 21509; 21520; 21521; 21524; 21525; 21568; 21569; 21572; 21573; 21584; 21585; 21588; 21589;
    21760; 21761; 21764; 21765; 21776; 21777; 21780; 21781; 21824; 21825; 21828; 21829; 21840; 21841; 21844; 21845 ].

(** Indexing a Python list with a non-negative in-range index; the callers mask the
    index with 0xFF first. *)
Definition morton_tab (x : Z) : Z := nth (Z.to_nat x) MortonTable256 0.

(** headerspace.py:248-255 morton_number (pure Python). The Python recursion is unbounded;
    the fuel is the number of bytes and exhaustion is an error. For a negative argument
    the Python test [(a|b) > 0xFF] is false or true as for [Z]. *)
Fixpoint morton_py_fuel (fuel : nat) (a b : Z) : result Z :=
  match fuel with
  | O => Err OutOfFuel
  | S fuel' =>
    let res := Z.lor (Z.shiftl (morton_tab (Z.land b 255)) 1) (morton_tab (Z.land a 255)) in
    if 255 <? Z.lor a b then
      do hi <- morton_py_fuel fuel' (Z.shiftr a 8) (Z.shiftr b 8);
      Ok (Z.lor res (Z.shiftl hi 16))
    else Ok res
  end.
Definition num_bits (x : Z) : Z := if x =? 0 then 0 else Z.log2 (Z.abs x) + 1.
Definition morton_number_py (a b : Z) : result Z :=
  morton_py_fuel (S (Z.to_nat (Z.max (num_bits a) (num_bits b)))) a b.

(** _PyLong_AsByteArray(.., little_endian=1, is_signed=0): the [k] low words of width [w],
    OverflowError for a negative number. (The array is always long enough here:
    words = bits/w + 1.) *)
Fixpoint split_words (w : Z) (k : nat) (x : Z) : list Z :=
  match k with
  | O => []
  | S k' => Z.land x (Z.ones w) :: split_words w k' (Z.shiftr x w)
  end.
(** _PyLong_FromByteArray(.., little_endian=1, is_signed=0), words of width [w]. *)
Fixpoint join_words (w : Z) (l : list Z) : Z :=
  match l with
  | [] => 0
  | x :: t => Z.lor x (Z.shiftl (join_words w t) w)
  end.

(** The PDEP instruction (Intel SDM, operation section): scan the mask from bit [m] up,
    depositing successive low bits [k] of the source. *)
Fixpoint pdep_loop (n : nat) (m k : Z) (src mask : Z) : Z :=
  match n with
  | O => 0
  | S n' =>
    if Z.testbit mask m
    then Z.lor (if Z.testbit src k then Z.shiftl 1 m else 0) (pdep_loop n' (m + 1) (k + 1) src mask)
    else pdep_loop n' (m + 1) k src mask
  end.
Definition pdep (width : nat) (src mask : Z) : Z := pdep_loop width 0 0 src mask.

(** The common frame of the three C functions: [w] input word width, [f] per word. *)
Definition morton_words (w : Z) (f : Z -> Z -> Z) (a b : Z) : result Z :=
  if (a <? 0) || (b <? 0) then Err OverflowError else
  let bits_to_read := Z.max (num_bits a) (num_bits b) in
  let words := Z.to_nat (bits_to_read / w + 1) in
  Ok (join_words (2 * w) (map (fun ab => f (fst ab) (snd ab))
        (combine (split_words w words a) (split_words w words b)))).

(** c_src/utils.c:61-102 *)
Definition morton_number_pdep32 : Z -> Z -> result Z :=
  morton_words 16 (fun a b => Z.lor (pdep 32 a 0x55555555) (pdep 32 b 0xAAAAAAAA)).
(** c_src/utils.c:104-145 *)
Definition morton_number_pdep64 : Z -> Z -> result Z :=
  morton_words 32 (fun a b =>
    Z.lor (pdep 64 a 0x5555555555555555) (pdep 64 b 0xAAAAAAAAAAAAAAAA)).
(** c_src/utils.c:179-218 *)
Definition morton_number_lut : Z -> Z -> result Z :=
  morton_words 8 (fun a b =>
    Z.lor (Z.shiftl (morton_tab (Z.land b 255)) 1) (morton_tab (Z.land a 255))).

(** headerspace.py:340-354 one entry of RMortonTable256. *)
Definition rmorton_entry (x : Z) : Z * Z :=
  let step (c : Z) :=
    let c := Z.land (Z.lor c (Z.shiftr c 1)) 0x3333 in
    let c := Z.land (Z.lor c (Z.shiftr c 2)) 0x0f0f in
    Z.land (Z.lor c (Z.shiftr c 4)) 0x00ff in
  (step (Z.land x 0x5555), step (Z.shiftr (Z.land x 0xAAAA) 1)).

(** headerspace.py:357-367 RMorton: 16 bits at a time. (For a negative [num] the Python
    loop never ends; the fuel is then exhausted.) *)
Fixpoint rmorton_fuel (fuel : nat) (num offset a b : Z) : result (Z * Z) :=
  if num =? 0 then Ok (a, b) else
  match fuel with
  | O => Err OutOfFuel
  | S fuel' =>
    let '(na, nb) := rmorton_entry (Z.land num 0xFFFF) in
    rmorton_fuel fuel' (Z.shiftr num 16) (offset + 8)
      (Z.lor a (Z.shiftl na offset)) (Z.lor b (Z.shiftl nb offset))
  end.
Definition RMorton (num : Z) : result (Z * Z) :=
  rmorton_fuel (Z.to_nat (num_bits num)) num 0 0 0.

(** ** Matches and wildcards *)

(** A flow match as the list of its dict items: field, value, mask (None = exact). *)
Definition match_item := (string * (Z * option Z))%type.

(** headerspace.py:274-292 flow_matches_to_wildcard, with the default morton_number
    (the C pdep64 version; by C07 all versions agree on the arguments used here).
    A field missing from headerspace's own field table is skipped (the try/except).
    That table is private to headerspace.py (its own OpenFlow1_3_5 object), so names
    allocated at run time elsewhere are missing from it. *)
Definition match_item_wc (wc : Z) (it : match_item) : result Z :=
  let '(field, (value, mask)) := it in
  match field_bits field, field_offset field with
  | Some bits, Some off =>
    let bit_width := bits * 2 in
    let wmask := Z.shiftl 1 bit_width - 1 in
    let mask := match mask with None => wmask | Some m => m end in
    do m <- morton_number_pdep64 (Z.land (Z.lor (Z.lnot value) (Z.lnot mask)) wmask)
                                 (Z.land (Z.lor value (Z.lnot mask)) wmask);
    Ok (Z.land wc (Z.lor (Z.shiftl m (off * 2)) (Z.lnot (Z.shiftl wmask (off * 2)))))
  | Some _, None => Err KeyError
  | None, _ => Ok wc
  end.
Definition flow_matches_to_wildcard (ms : list match_item) : result Z :=
  rfold match_item_wc ms WC_FULLWC.

(** headerspace.py:369-381 bit2field, the list of field names per wildcard bit; kept as
    the function [bit2field_at] of the bit position. [None] is the string 'NONE'. *)
Definition bit2field_list_def : list (option slot) :=
  repeat None (Z.to_nat (extra_padding * 2)) ++
  flat_map (fun s => repeat (Some s) (Z.to_nat (sl_bits s * 2))) layout.
Definition bit2field_at (pos : Z) : option (option slot) :=
  nth_error bit2field_list_def (Z.to_nat pos).

(** headerspace.py:412-418 bit_scan0 / mpz.bit_scan0: first zero bit at or above [offset].
    The Python loop is unbounded. *)
Fixpoint bit_scan0 (fuel : nat) (i offset : Z) : result Z :=
  if Z.testbit i offset then
    match fuel with O => Err OutOfFuel | S fuel' => bit_scan0 fuel' i (offset + 1) end
  else Ok offset.
Definition SCAN_FUEL : nat := Z.to_nat (bytes_needed * 16).

(** headerspace.py:384-410, 420-441 flow_wildcard_to_fields (both variants are the same
    loop). [bit2field] yields 'NONE' for padding, which is not in oxm_fields: KeyError. *)
Fixpoint wc_to_fields_loop (fuel : nat) (wc offset : Z) : result (list match_item) :=
  if bytes_needed * 16 <=? offset then Ok [] else
  match fuel with
  | O => Err OutOfFuel
  | S fuel' =>
    match bit2field_at offset with
    | None => Err IndexError
    | Some None => Err KeyError
    | Some (Some s) =>
      let length := sl_bits s in
      let mask := Z.shiftl 1 (length * 2) - 1 in
      let value := Z.land (Z.shiftr wc (sl_off s * 2)) mask in
      if value =? mask then Err AssertionError else
      do ab <- RMorton value;
      let '(a, b) := ab in
      let part_value := Z.land b (Z.lxor a b) in
      let part_mask := Z.lxor a b in
      let here :=
        if part_mask =? 0 then []
        else if part_mask =? Z.shiftl 1 length - 1
             then [(sl_name s, (part_value, None))]
             else [(sl_name s, (part_value, Some part_mask))] in
      do offset' <- bit_scan0 SCAN_FUEL wc (sl_off s * 2 + length * 2);
      do rest <- wc_to_fields_loop fuel' wc offset';
      Ok (here ++ rest)
    end
  end.
Definition flow_wildcard_to_fields (wc : Z) : result (list match_item) :=
  do offset <- bit_scan0 SCAN_FUEL wc 0;
  wc_to_fields_loop (List.length layout) wc offset.

(** ** class headerspace (headerspace.py:511-590)
    hs_list / hs_diff are two parallel Python lists; the model zips them. *)
Definition headerspace := list (Z * list Z).
Definition hs_empty : headerspace := [].
(** headerspace.py:519-525 *)
Definition add_hs (h : headerspace) (wc : Z) : headerspace := h ++ [(wc, [])].
(** headerspace.py:540-563 *)
Definition hs_pair_intersect (x y : Z * list Z) : headerspace :=
  let isect := wildcard_intersect (fst x) (fst y) in
  if isect =? 0 then [] else
  let keep l := filter (fun d => negb (d =? 0)) (map (wildcard_intersect isect) l) in
  [(isect, keep (snd x) ++ keep (snd y))].
Definition hs_intersect (h o : headerspace) : headerspace :=
  flat_map (fun x => flat_map (hs_pair_intersect x) o) h.
(** headerspace.py:565-566 *)
Definition hs_is_empty (h : headerspace) : bool :=
  match h with [] => true | _ => false end.
(** headerspace.py:568-575 *)
Definition hs_diff (h : headerspace) (other : Z) : headerspace :=
  map (fun x => let i := wildcard_intersect (fst x) other in
                if i =? 0 then x else (fst x, snd x ++ [i])) h.
(** headerspace.py:577-590 *)
Definition hs_clean_up (h : headerspace) : headerspace :=
  flat_map (fun x => if existsb (wildcard_is_subset (fst x)) (snd x) then []
                     else [(fst x, compress_wildcard_list (snd x))]) h.
