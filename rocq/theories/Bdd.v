(** Multi-terminal BDDs: the pure Python backend ofequivalence/bdd.py, the C backend
    c_src/cbddmodule.cpp + cbdd.py, and the CUDD backend c_src/cuddmodule.c + cuddbdd.py.

    Nodes are modelled as trees and pointer identity ([a is b], [id(a) == id(b)], C pointer
    equality) as equality of trees. That the hash-consing in NODE_CACHE makes the two the
    same thing, and that the operation caches cannot change any result, is proved
    separately in BddHeap*.v (C15). *)
From Verif Require Export Wildcard.

(** Terminals carry an action of any type with decidable equality ([==] of bdd.py:161-164
    compares the actions). *)
Section Bdd.
  Context {A : Type} (A_eq_dec : forall x y : A, {x = y} + {x <> y}).

  (** bdd.py:126-185: None, BDDTermination(action), BDDNode(num, zero, one). The friendly
      name of a terminal is not part of its identity and is left out. *)
  Inductive bdd :=
  | BNone
  | BTerm (a : A)
  | BNode (num : Z) (zero one : bdd).

  Definition bdd_eq_dec : forall x y : bdd, {x = y} + {x <> y}.
  Proof. decide equality. apply Z.eq_dec. Defined.

  (** bdd.py:134-135 and 153: a node has_none when some path below it ends in None. *)
  Fixpoint has_none (b : bdd) : bool :=
    match b with
    | BNone => true
    | BTerm _ => false
    | BNode _ z o => has_none z || has_none o
    end.

  (** bdd.py:198-210 check_ncache_rm_dup, cbddmodule.cpp:386-436 get_node *)
  Definition mk (num : Z) (zero one : bdd) : bdd :=
    if bdd_eq_dec zero one then zero else BNode num zero one.

  (** bdd.py:213-251 wc_to_BDD without RULE_CACHE. [b] runs from 0, [num] from NB-1 down. *)
  Definition wc_bit (wc b : Z) : Z := Z.land (Z.shiftr wc (b * 2)) 3.
  Definition wc_to_BDD_step (wc : Z) (cnode : bdd) (b : Z) : result bdd :=
    let num := NB - 1 - b in
    let value := wc_bit wc b in
    if value =? 0 then Err AssertionError
    else if value =? 1 then Ok (BNode num cnode BNone)
    else if value =? 2 then Ok (BNode num BNone cnode)
    else Ok cnode.
  Fixpoint rfold_l {X Y} (f : X -> Y -> result X) (x : X) (l : list Y) : result X :=
    match l with
    | [] => Ok x
    | y :: t => do x' <- f x y; rfold_l f x' t
    end.
  Definition wc_to_BDD (wc : Z) (action : A) : result bdd :=
    if wc =? 0 then Ok BNone
    else rfold_l (wc_to_BDD_step wc) (BTerm action) (seqZ (Z.to_nat NB)).

  (** cbdd.py:147-171 with cbddmodule.cpp:822-851 wc_to_BDD: the wildcard is read from the
      PyLong digits of [SHIFT] bits (PyLong_SHIFT, usually 30; lines 818-820 refuse to compile
      when it is odd). No assertion: a z tbit is skipped like x. *)
  Definition py_digit (SHIFT wc k : Z) : Z := Z.land (Z.shiftr wc (SHIFT * k)) (2 ^ SHIFT - 1).
  Definition c_wc_bit (SHIFT wc offset : Z) : Z :=
    Z.land (Z.shiftr (py_digit SHIFT wc (offset * 2 / SHIFT)) ((offset * 2) mod SHIFT)) 3.
  Definition c_wc_to_BDD_step (SHIFT wc : Z) (cnode : bdd) (offset : Z) : bdd :=
    let d := c_wc_bit SHIFT wc offset in
    if d =? 1 then mk (NB - 1 - offset) cnode BNone
    else if d =? 2 then mk (NB - 1 - offset) BNone cnode
    else cnode.
  Definition c_wc_to_BDD (SHIFT wc : Z) (action : A) : bdd :=
    if wc =? 0 then BNone
    else fold_left (c_wc_to_BDD_step SHIFT wc) (seqZ (Z.to_nat NB)) (BTerm action).

  (** bdd.py:279-330 meld_recursive, cbddmodule.cpp:446-497. Node numbers are below
      BDDTermination.num = 10^12, so a terminal always compares as the deeper one and the
      assertions on line 315/324 cannot fire. *)
  Fixpoint meld (a : bdd) : bdd -> bdd :=
    fix meld_b (b : bdd) : bdd :=
      match a, b with
      | BNone, _ => b
      | _, BNone => a
      | BTerm _, _ => a                                  (* not a.has_none *)
      | BNode na az ao, _ =>
        if negb (has_none a) then a else
        match b with
        | BNone => a
        | BTerm _ => mk na (meld az b) (meld ao b)
        | BNode nb bz bo =>
          if na =? nb then mk na (meld az bz) (meld ao bo)
          else if na <? nb then mk na (meld az b) (meld ao b)
          else mk nb (meld_b bz) (meld_b bo)
        end
      end.

  (** bdd.py:337-385 difference_recursive, cbddmodule.cpp:499-572. [differs] is the action
      of IS_DIFFERING. *)
  Context (differs : A).
  Fixpoint difference (a : bdd) : bdd -> bdd :=
    fix difference_b (b : bdd) : bdd :=
      if bdd_eq_dec a b then BNone else
      match a, b with
      | BNone, _ => BTerm differs
      | BTerm _, BNone => BTerm differs
      | BTerm _, BTerm _ => BTerm differs
      | BNode na az ao, BNone => mk na (difference az BNone) (difference ao BNone)
      | BNode na az ao, BTerm _ => mk na (difference az b) (difference ao b)
      | BTerm _, BNode nb bz bo => mk nb (difference_b bz) (difference_b bo)
      | BNode na az ao, BNode nb bz bo =>
        if na =? nb then mk na (difference az bz) (difference ao bo)
        else if na <? nb then mk na (difference az b) (difference ao b)
        else mk nb (difference_b bz) (difference_b bo)
      end.

  (** bdd.py:388-428 subtract_recursive, cbddmodule.cpp:575-637 *)
  Fixpoint subtract (a : bdd) : bdd -> bdd :=
    fix subtract_b (b : bdd) : bdd :=
      if bdd_eq_dec a b then BNone else
      match a, b with
      | BNone, _ => BNone
      | _, BNone => a
      | BTerm _, BTerm _ => a
      | BNode na az ao, BTerm _ => mk na (subtract az b) (subtract ao b)
      | BTerm _, BNode nb bz bo => mk nb (subtract_b bz) (subtract_b bo)
      | BNode na az ao, BNode nb bz bo =>
        if na =? nb then mk na (subtract az bz) (subtract ao bo)
        else if na <? nb then mk na (subtract az b) (subtract ao b)
        else mk nb (subtract_b bz) (subtract_b bo)
      end.

  (** bdd.py:431-465 intersection_recursive, cbddmodule.cpp:639-690. Two different terminals
      have the same num, so the recursion continues into their (None) children and
      check_ncache_rm_dup(num, None, None) returns None. *)
  Fixpoint intersection (a : bdd) : bdd -> bdd :=
    fix intersection_b (b : bdd) : bdd :=
      match a, b with
      | BNone, _ => BNone
      | _, BNone => BNone
      | _, _ =>
        if bdd_eq_dec a b then a else
        match a, b with
        | BTerm _, BTerm _ => BNone
        | BNode na az ao, BTerm _ => mk na (intersection az b) (intersection ao b)
        | BTerm _, BNode nb bz bo => mk nb (intersection_b bz) (intersection_b bo)
        | BNode na az ao, BNode nb bz bo =>
          if na =? nb then mk na (intersection az bz) (intersection ao bo)
          else if na <? nb then mk na (intersection az b) (intersection ao b)
          else mk nb (intersection_b bz) (intersection_b bo)
        | _, _ => BNone
        end
      end.

  (** bdd.py:264-276 / cbdd.py:185-197 _BDD_to_wcs, bdd.py:254-257 BDD_to_wcs (the empty
      Match has the wildcard WC_FULLWC) *)
  Fixpoint BDD_to_wcs_rec (node : bdd) (wc : Z) : list (Z * A) :=
    match node with
    | BNone => []
    | BTerm a => [(wc, a)]
    | BNode num z o =>
      let bits := NB - 1 in
      (match z with BNone => [] | _ =>
         BDD_to_wcs_rec z (Z.land wc (Z.lnot (Z.shiftl 2 ((bits - num) * 2)))) end) ++
      (match o with BNone => [] | _ =>
         BDD_to_wcs_rec o (Z.land wc (Z.lnot (Z.shiftl 1 ((bits - num) * 2)))) end)
    end.
  Definition BDD_to_wcs (b : bdd) : list (Z * A) := BDD_to_wcs_rec b WC_FULLWC.

  (** bdd.py:60-76 walk and 122-123 __len__: every distinct node once, children first. *)
  Fixpoint walk (b : bdd) (visited : list bdd) : list bdd :=   (* returns the new visited *)
    match b with
    | BNone => visited
    | BTerm _ => if in_dec bdd_eq_dec b visited then visited else visited ++ [b]
    | BNode _ z o =>
      if in_dec bdd_eq_dec b visited then visited
      else walk o (walk z visited) ++ [b]
    end.
  Definition bdd_len (b : bdd) : nat := List.length (walk b []).
  (** truth value of a bdd.BDD object: __len__() != 0 *)
  Definition bdd_bool (b : bdd) : bool := negb (Nat.eqb (bdd_len b) 0).
End Bdd.
Arguments bdd : clear implicits.

(** ** CUDD *)
(** An ADD: constants are numbers (doubles in CUDD, here the integers they hold), BK is the
    constant 0. *)
Inductive add :=
| AConst (v : Z)
| ANode (index : Z) (T E : add).
Definition add_eq_dec : forall x y : add, {x = y} + {x <> y}.
Proof. decide equality; apply Z.eq_dec. Defined.
Definition BK : add := AConst 0.
Definition is_const (f : add) : bool := match f with AConst _ => true | _ => false end.

(** cuddmodule.c:75-78 *)
Definition encode_terminal (a b : Z) : Z := Z.lor a (Z.shiftl b 26).
Definition decode_terminal (t : Z) : Z * Z := (Z.land t 67108863, Z.land (Z.shiftr t 26) 67108863).
Definition DIFFERS : add := AConst (encode_terminal 1 0).

(** The terminal cases handed to Cudd_addApply: cuddmodule.c:484-546. None means "recurse". *)
Definition addMeld (F G : add) : option add :=
  if (if add_eq_dec F G then true else false) || (if add_eq_dec F BK then true else false) then Some G
  else if is_const F || (if add_eq_dec G BK then true else false) then Some F
  else None.
Definition addSubtract (F G : add) : option add :=
  if add_eq_dec F G then Some BK
  else if is_const F && is_const G then Some F else None.
Definition addDifference (F G : add) : option add :=
  if add_eq_dec F G then Some BK
  else if add_eq_dec F BK then Some DIFFERS
  else if is_const F && is_const G then Some DIFFERS else None.
Definition addDiffTagged (F G : add) : option add :=
  if add_eq_dec F G then Some BK
  else match F, G with
       | AConst u, AConst v => Some (AConst (encode_terminal u v))
       | _, _ => None
       end.
Definition addIntersection (F G : add) : option add :=
  if add_eq_dec F G then Some F
  else if is_const F && is_const G then Some BK else None.

(** CUDD library: cuddUniqueInter after the T == E test of cuddAddApplyRecur. *)
Definition amk (index : Z) (T E : add) : add :=
  if add_eq_dec T E then T else ANode index T E.

(** CUDD library: Cudd_addApply / cuddAddApplyRecur without its computed table. The index
    order is the variable order (the code never reorders). Two constants for which the
    operator returns NULL do not occur with the five operators above; F is returned. *)
Section Apply.
  Context (op : add -> add -> option add).
  Fixpoint addApply (f : add) : add -> add :=
    fix apply_g (g : add) : add :=
      match op f g with
      | Some r => r
      | None =>
        match f, g with
        | AConst _, AConst _ => f
        | ANode i ft fe, AConst _ => amk i (addApply ft g) (addApply fe g)
        | AConst _, ANode j gt ge => amk j (apply_g gt) (apply_g ge)
        | ANode i ft fe, ANode j gt ge =>
          if i =? j then amk i (addApply ft gt) (addApply fe ge)
          else if i <? j then amk i (addApply ft g) (addApply fe g)
          else amk j (apply_g gt) (apply_g ge)
        end
      end.
End Apply.

(** cuddmodule.c:756-796 wc_to_BDD (PyLong digits as in the C backend), cuddbdd.py:50-71 for
    the empty wildcard. *)
Definition cudd_wc_step (SHIFT wc : Z) (f : add) (offset : Z) : add :=
  let d := c_wc_bit SHIFT wc offset in
  if d =? 1 then ANode (NB - 1 - offset) BK f
  else if d =? 2 then ANode (NB - 1 - offset) f BK
  else f.
Definition cudd_wc_to_BDD (SHIFT wc term : Z) : add :=
  if wc =? 0 then BK
  else fold_left (cudd_wc_step SHIFT wc) (seqZ (Z.to_nat NB)) (AConst (encode_terminal term 0)).

(** cuddmodule.c:396-428 _BDD_to_wcs. BDDIterator (319-376) walks the same paths, else branch
    first, via CUDD's cube generator. *)
Fixpoint cudd_to_wcs_rec (node : add) (wc : Z) : list (Z * (Z * Z)) :=
  match node with
  | AConst v => if v =? 0 then [] else [(wc, decode_terminal v)]
  | ANode i T E =>
    let bits := NB - 1 in
    cudd_to_wcs_rec E (Z.land wc (Z.lnot (Z.shiftl 2 ((bits - i) * 2)))) ++
    cudd_to_wcs_rec T (Z.land wc (Z.lnot (Z.shiftl 1 ((bits - i) * 2))))
  end.
Definition cudd_to_wcs (b : add) : list (Z * (Z * Z)) := cudd_to_wcs_rec b WC_FULLWC.

(** cuddmodule.c:378-385 size_rec, 387-394 BDDIterator_len *)
Fixpoint size_rec (n : add) : Z :=
  match n with
  | AConst v => if v =? 0 then 0 else 1
  | ANode _ T E => size_rec E + size_rec T
  end.

(** cuddmodule.c:454-459 BDD_bool *)
Definition cudd_bool (n : add) : bool := if add_eq_dec n BK then false else true.

(** cuddbdd.py:28-37 and 59-66: numbering of the actions. [acts] lists the actions in order
    of their ids, starting at id 1 ("DIFFERS"). *)
Section Ids.
  Context {A : Type} (A_eq_dec : forall x y : A, {x = y} + {x <> y}).
  Fixpoint index_of (a : A) (l : list A) (k : Z) : option Z :=
    match l with
    | [] => None
    | x :: t => if A_eq_dec x a then Some k else index_of a t (k + 1)
    end.
  Definition action_id (acts : list A) (a : A) : list A * Z :=
    match index_of a acts 1 with
    | Some i => (acts, i)
    | None => (acts ++ [a], Z.of_nat (List.length acts) + 1)
    end.
  (** TERM_TO_ACTION *)
  Definition term_to_action (acts : list A) (t : Z) : result (option A) :=
    if t =? 0 then Ok None
    else if t <? 0 then Err KeyError
    else match nth_error acts (Z.to_nat (t - 1)) with
         | Some a => Ok (Some a)
         | None => Err KeyError
         end.
End Ids.
