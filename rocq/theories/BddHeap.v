(** The pure Python BDD engine with its global state: hash-consed nodes (NODE_CACHE) and the
    LRU caches of bdd.py:26-34. An address models id(node). *)
From Verif Require Export Bdd.

Section Heap.
  Context {A : Type} (A_eq_dec : forall x y : A, {x = y} + {x <> y}).

  (** A reference: Python None or the address of a node. *)
  Definition ref := option nat.
  Definition ref_eq_dec : forall x y : ref, {x = y} + {x <> y}.
  Proof. decide equality. apply Nat.eq_dec. Defined.

  (** bdd.py:126-185. has_none is stored in the node when it is created (134-135). *)
  Inductive cell :=
  | CTerm (a : A)
  | CNode (num : Z) (zero one : ref) (hn : bool).

  (** bdd.py:151-154: class attributes of BDDTermination *)
  Definition TERM_NUM : Z := 1000000000000.
  Definition cell_num (c : cell) : Z := match c with CTerm _ => TERM_NUM | CNode n _ _ _ => n end.
  Definition cell_zero (c : cell) : ref := match c with CTerm _ => None | CNode _ z _ _ => z end.
  Definition cell_one (c : cell) : ref := match c with CTerm _ => None | CNode _ _ o _ => o end.
  Definition cell_hn (c : cell) : bool := match c with CTerm _ => false | CNode _ _ _ h => h end.

  (** bdd.py:137-140 and 160-163: __eq__ between two nodes *)
  Definition cell_eqb (x y : cell) : bool :=
    match x with
    | CTerm a => match y with CTerm b => if A_eq_dec a b then true else false | _ => false end
    | CNode n z o _ =>
      (n =? cell_num y) && (if ref_eq_dec z (cell_zero y) then true else false) &&
      (if ref_eq_dec o (cell_one y) then true else false)
    end.

  (** The four memoised operations. Each has its own LRU in the code; here one list holds
      the entries of all four, tagged with the operation. *)
  Inductive opk := Merge | Diff | Sub | Inter.
  Definition opk_eq_dec : forall x y : opk, {x = y} + {x <> y}.
  Proof. decide equality. Defined.
  Definition okey : Type := opk * ref * ref.
  Definition okey_eq_dec : forall x y : okey, {x = y} + {x <> y}.
  Proof. repeat decide equality. Defined.
  Definition rkey : Type := Z * nat.
  Definition rkey_eq_dec : forall x y : rkey, {x = y} + {x <> y}.
  Proof. repeat decide equality. Defined.
  Record st := mkst {
    heap : list cell;                (* every node ever kept; NODE_CACHE holds exactly these *)
    ocache : list (okey * ref);
    rcache : list (rkey * ref);
    tick : nat }.

  (** What an LRU keeps after its n-th access, given the key just used: any subset. The
      theorems quantify over all such policies. *)
  Context (opol : nat -> okey -> list (okey * ref) -> list (okey * ref)).
  Context (rpol : nat -> rkey -> list (rkey * ref) -> list (rkey * ref)).

  Fixpoint assoc {K V} (eqd : forall x y : K, {x = y} + {x <> y}) (k : K) (l : list (K * V)) : option V :=
    match l with
    | [] => None
    | (k', v) :: t => if eqd k' k then Some v else assoc eqd k t
    end.
  Definition ocache_get (k : okey) (s : st) : ref * st :=
    (match assoc okey_eq_dec k (ocache s) with Some r => r | None => None end,
     mkst (heap s) (opol (tick s) k (ocache s)) (rcache s) (S (tick s))).
  Definition ocache_set (k : okey) (r : ref) (s : st) : st :=
    mkst (heap s) (opol (tick s) k ((k, r) :: filter (fun e => if okey_eq_dec (fst e) k then false else true) (ocache s)))
         (rcache s) (S (tick s)).
  Definition rcache_get (k : rkey) (s : st) : ref * st :=
    (match assoc rkey_eq_dec k (rcache s) with Some r => r | None => None end,
     mkst (heap s) (ocache s) (rpol (tick s) k (rcache s)) (S (tick s))).
  Definition rcache_set (k : rkey) (r : ref) (s : st) : st :=
    mkst (heap s) (ocache s) (rpol (tick s) k ((k, r) :: filter (fun e => if rkey_eq_dec (fst e) k then false else true) (rcache s)))
         (S (tick s)).

  (** bdd.py:188-195 check_ncache: the first node equal to [c], or [c] itself, now kept. *)
  Fixpoint find_cell (c : cell) (h : list cell) (k : nat) : option nat :=
    match h with
    | [] => None
    | x :: t => if cell_eqb c x then Some k else find_cell c t (S k)
    end.
  Definition check_ncache (c : cell) (s : st) : ref * st :=
    match find_cell c (heap s) 0 with
    | Some i => (Some i, s)
    | None => (Some (List.length (heap s)), mkst (heap s ++ [c]) (ocache s) (rcache s) (tick s))
    end.

  Definition deref (s : st) (i : nat) : result cell :=
    match nth_error (heap s) i with Some c => Ok c | None => Err AttributeError end.
  Definition ref_hn (s : st) (r : ref) : result bool :=
    match r with None => Ok true | Some i => rmap cell_hn (deref s i) end.

  (** BDDNode.__init__ (bdd.py:129-135), with its assertion. *)
  Definition new_node (num : Z) (zero one : ref) (s : st) : result cell :=
    do same <- match zero, one with
               | None, _ => Ok false
               | Some _, None => Ok false
               | Some i, Some j => do x <- deref s i; do y <- deref s j; Ok (cell_eqb x y)
               end;
    if (same : bool) then Err AssertionError
    else do hz <- ref_hn s zero; do ho <- ref_hn s one; Ok (CNode num zero one (hz || ho)).

  (** bdd.py:198-210 *)
  Definition check_ncache_rm_dup (num : Z) (zero one : ref) (s : st) : result (ref * st) :=
    if ref_eq_dec zero one then Ok (zero, s)
    else do n <- new_node num zero one s; Ok (check_ncache n s).

  (** IS_DIFFERING (bdd.py:332-334) is the first node kept. *)
  Definition IS_DIFFERING : ref := Some 0%nat.
  Definition is_term (c : cell) : bool := cell_num c =? TERM_NUM.

  (** The tests at the top of each operation: Some r means "return r".
      meld_recursive 299-304, difference_recursive 344-354, subtract_recursive 395-404,
      intersection_recursive 438-441 ([==], not [is]). *)
  Definition op_stop (op : opk) (a b : ref) (s : st) : result (option ref) :=
    match op with
    | Merge =>
      match a, b with
      | None, _ => Ok (Some b)
      | Some i, None => Ok (Some a)
      | Some i, Some _ => do c <- deref s i; Ok (if cell_hn c then None else Some a)
      end
    | Diff =>
      if ref_eq_dec a b then Ok (Some None) else
      match a, b with
      | None, _ => Ok (Some IS_DIFFERING)
      | Some i, None => do c <- deref s i; Ok (if is_term c then Some IS_DIFFERING else None)
      | Some i, Some j => do c <- deref s i; do d <- deref s j;
                          Ok (if is_term c && is_term d then Some IS_DIFFERING else None)
      end
    | Sub =>
      if ref_eq_dec a b then Ok (Some None) else
      match a, b with
      | None, _ => Ok (Some None)
      | Some i, None => Ok (Some a)
      | Some i, Some j => do c <- deref s i; do d <- deref s j;
                          Ok (if is_term c && is_term d then Some a else None)
      end
    | Inter =>
      match a, b with
      | None, _ => Ok (Some None)
      | Some i, None => Ok (Some None)
      | Some i, Some j => do c <- deref s i; do d <- deref s j;
                          Ok (if cell_eqb c d then Some a else None)
      end
    end.

  (** After those tests the four functions have the same text (306-330, 356-385, 406-428,
      443-465): look in the cache, recurse on the smaller node number, keep the result.
      [fuel] counts Python stack frames. Line 362-366: only difference gets here with b None. *)
  Fixpoint op_rec (fuel : nat) (op : opk) (a b : ref) (s : st) : result (ref * st) :=
    match fuel with
    | O => Err RecursionError
    | S f =>
      do stop <- op_stop op a b s;
      match stop with
      | Some r => Ok (r, s)
      | None =>
        let (cached, s) := ocache_get (op, a, b) s in
        match cached with
        | Some _ => Ok (cached, s)
        | None =>
          do (num, (a0, b0), (a1, b1)) <-
            match a, b with
            | Some i, Some j =>
              do c <- deref s i; do d <- deref s j;
              if cell_num c =? cell_num d then
                Ok (cell_num c, (cell_zero c, cell_zero d), (cell_one c, cell_one d))
              else if cell_num c <? cell_num d then
                if cell_num c <? TERM_NUM then Ok (cell_num c, (cell_zero c, b), (cell_one c, b))
                else Err AssertionError
              else
                if cell_num d <? TERM_NUM then Ok (cell_num d, (a, cell_zero d), (a, cell_one d))
                else Err AssertionError
            | Some i, None =>
              do c <- deref s i; Ok (cell_num c, (cell_zero c, None), (cell_one c, None))
            | None, _ => Err AttributeError
            end;
          do (r0, s) <- op_rec f op a0 b0 s;
          do (r1, s) <- op_rec f op a1 b1 s;
          do (r, s) <- check_ncache_rm_dup num r0 r1 s;
          Ok (r, ocache_set (op, a, b) r s)
        end
      end
    end.

  (** bdd.py:213-251 wc_to_BDD *)
  Definition wc_step_h (wc : Z) (cs : ref * st) (b : Z) : result (ref * st) :=
    let num := NB - 1 - b in
    let (cnode, s) := cs in
    let value := wc_bit wc b in
    if value =? 0 then Err AssertionError
    else if value =? 1 then do n <- new_node num cnode None s; Ok (check_ncache n s)
    else if value =? 2 then do n <- new_node num None cnode s; Ok (check_ncache n s)
    else Ok (cnode, s).
  Definition wc_to_BDD_h (wc : Z) (action : A) (s : st) : result (ref * st) :=
    if wc =? 0 then Ok (None, s)
    else
      let (term, s) := check_ncache (CTerm action) s in
      match term with
      | None => Err AttributeError
      | Some t =>
        let (cached, s) := rcache_get (wc, t) s in
        match cached with
        | Some _ => Ok (cached, s)
        | None =>
          do (root, s) <- rfold_l (wc_step_h wc) (term, s) (seqZ (Z.to_nat NB));
          Ok (root, rcache_set (wc, t) root s)
        end
      end.

  (** A client of the engine: it keeps the BDD objects it made in a list. [frames] is the
      recursion limit left to each operation. *)
  Inductive cmd := KEmpty | KWc (wc : Z) (act : A) | KOp (op : opk) (i j : nat).
  Definition get_handle {X} (l : list X) (i : nat) : result X :=
    match nth_error l i with Some x => Ok x | None => Err IndexError end.
  Definition step (frames : nat) (c : cmd) (hs : list ref) (s : st) : result (list ref * st) :=
    match c with
    | KEmpty => Ok (hs ++ [None], s)
    | KWc wc act => do (r, s) <- wc_to_BDD_h wc act s; Ok (hs ++ [r], s)
    | KOp op i j => do a <- get_handle hs i; do b <- get_handle hs j;
                    do (r, s) <- op_rec frames op a b s; Ok (hs ++ [r], s)
    end.
  Fixpoint run (frames : nat) (cs : list cmd) (hs : list ref) (s : st) : result (list ref * st) :=
    match cs with
    | [] => Ok (hs, s)
    | c :: t => do (hs, s) <- step frames c hs s; run frames t hs s
    end.
  (** Start of the process (bdd.py:27-34, 332-334). *)
  Definition st0 (differs : A) : st := mkst [CTerm differs] [] [] 0.
End Heap.
Arguments cell : clear implicits.
Arguments st : clear implicits.
Arguments cmd : clear implicits.

(** lru.LRU(cap): the key used moves to the front, the list is cut to [cap]. *)
Definition lru_policy {K V} (eqd : forall x y : K, {x = y} + {x <> y}) (cap : nat) (_ : nat) (k : K) (l : list (K * V)) : list (K * V) :=
  firstn cap (filter (fun e => if eqd (fst e) k then true else false) l ++
              filter (fun e => if eqd (fst e) k then false else true) l).
