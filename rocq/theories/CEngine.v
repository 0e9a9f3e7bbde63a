(** The C BDD engine with its memory: c_src/cbddmodule.cpp and ofequivalence/cbdd.py. Nodes
    are objects with a reference count; NODE_CACHE is a dict that owns two references to
    each node (key and value); [gc_node_cache] removes nodes nothing else refers to, and
    their addresses are used again. Reading through a pointer to a freed object is a fault. *)
From Verif Require Export BddHeap.

Inductive fault :=
| UseAfterFree            (* a pointer to a freed object was followed *)
| AssertFailed            (* an assert() of the C++ source *)
| KeyMissing              (* PyDict_DelItem did not find its key *)
| StackOverflow           (* more C frames than [frames] *)
| StillRunning            (* the loop of gc_node_cache did not end *)
| NoSuchHandle.           (* the client names a BDD it does not hold *)
Inductive cres (X : Type) := Fine (x : X) | Fault (f : fault).
Arguments Fine {X} _. Arguments Fault {X} _.
Definition cbind {X Y} (r : cres X) (f : X -> cres Y) : cres Y :=
  match r with Fine x => f x | Fault e => Fault e end.
Notation "'cdo' x <- r ; f" := (cbind r (fun x => f))
  (at level 200, x pattern, r at level 100, f at level 200, right associativity).
Fixpoint cfold {X Y} (f : X -> Y -> cres X) (x : X) (l : list Y) : cres X :=
  match l with [] => Fine x | y :: t => cdo x' <- f x y; cfold f x' t end.
Definition upd {X} (f : nat -> X) (a : nat) (x : X) : nat -> X := fun b => if Nat.eq_dec b a then x else f b.

Section Engine.
  Context {A : Type} (A_eq_dec : forall x y : A, {x = y} + {x <> y}).
  Notation cell := (cell A).

  (** The objects (cbddmodule.cpp:64-69 BDDNode, 228-232 BDDTerm), their ob_refcnt, and
      NODE_CACHE in the order of PyDict_Next. The friendly name of a terminal is left out.
      [clock] counts allocations. *)
  Record mst := mkm {
    mem : nat -> option cell;
    cnt : nat -> Z;
    tbl : list nat;
    clock : nat }.
  (** Where the allocator puts the next object, given the addresses in use: any free one,
      perhaps one freed before. *)
  Context (alloc : nat -> list nat -> nat).
  (** C stack frames available. *)
  Context (frames : nat).

  Definition load (m : mst) (a : nat) : cres cell :=
    match mem m a with Some c => Fine c | None => Fault UseAfterFree end.

  (** Py_XINCREF. The counts of None are not kept. *)
  Definition incref (r : ref) (m : mst) : cres mst :=
    match r with
    | None => Fine m
    | Some a => cdo _ <- load m a; Fine (mkm (mem m) (upd (cnt m) a (cnt m a + 1)) (tbl m) (clock m))
    end.
  (** Py_XDECREF with BDDNode_dealloc (cbddmodule.cpp:134-139) and BDDTerm_dealloc (291-296):
      at zero the object gives up its children and is freed. *)
  Fixpoint decref (fuel : nat) (r : ref) (m : mst) : cres mst :=
    match r with
    | None => Fine m
    | Some a =>
      cdo c <- load m a;
      let m := mkm (mem m) (upd (cnt m) a (cnt m a - 1)) (tbl m) (clock m) in
      if cnt m a =? 0 then
        match fuel with
        | O => Fault StackOverflow
        | S f =>
          cdo m <- decref f (cell_zero c) m;
          cdo m <- decref f (cell_one c) m;
          Fine (mkm (upd (mem m) a None) (cnt m) (tbl m) (clock m))
        end
      else Fine m
    end.
  Definition increfs (l : list ref) (m : mst) : cres mst := cfold (fun m r => incref r m) m l.
  Definition decrefs (l : list ref) (m : mst) : cres mst := cfold (fun m r => decref frames r m) m l.

  (** A look-up in NODE_CACHE, by the equality of BDDNode_richcmp (206-225) and
      BDDTerm_richcmp (350-360). The hash is left out. *)
  Fixpoint find_addr (m : mst) (c : cell) (l : list nat) : option nat :=
    match l with
    | [] => None
    | x :: t => match mem m x with
                | Some d => if cell_eqb A_eq_dec c d then Some x else find_addr m c t
                | None => find_addr m c t
                end
    end.
  (** PyDict_SetItem(NODE_CACHE, n, n) for a new key; PyDict_DelItem(NODE_CACHE, x). *)
  Definition set_item (a : nat) (m : mst) : mst :=
    mkm (mem m) (upd (cnt m) a (cnt m a + 2)) (tbl m ++ [a]) (clock m).
  Definition del_item (m : mst) (x : nat) : cres mst :=
    cdo c <- load m x;
    match find_addr m c (tbl m) with
    | None => Fault KeyMissing
    | Some y =>
      let m := mkm (mem m) (cnt m) (filter (fun z => negb (Nat.eqb z y)) (tbl m)) (clock m) in
      cdo m <- decref frames (Some y) m;
      decref frames (Some y) m
    end.
  (** PyObject_New: one reference, owned by the caller. *)
  Definition new_object (c : cell) (m : mst) : nat * mst :=
    let a := alloc (clock m) (tbl m) in
    (a, mkm (upd (mem m) a (Some c)) (upd (cnt m) a 1) (tbl m) (S (clock m))).

  Definition load_hn (m : mst) (r : ref) : cres bool :=
    match r with None => Fine true | Some a => cdo c <- load m a; Fine (cell_hn c) end.
  (** cbddmodule.cpp:386-436 get_node. A borrowed reference is returned. *)
  Definition get_node (num : Z) (zero one : ref) (m : mst) : cres (ref * mst) :=
    if ref_eq_dec zero one then Fine (zero, m)
    else match find_addr m (CNode num zero one false) (tbl m) with
         | Some x => Fine (Some x, m)
         | None =>
           cdo hz <- load_hn m zero; cdo ho <- load_hn m one;
           let (n, m) := new_object (CNode num zero one (hz || ho)) m in
           cdo m <- incref zero m;
           cdo m <- incref one m;
           cdo m <- decref frames (Some n) (set_item n m);
           Fine (Some n, m)
         end.
  (** cbdd.py:122-129 check_ncache(BDDTermination(action, f_action)). The caller owns a
      reference to the result; when an equal terminal is there, the new object dies. *)
  Definition check_term (act : A) (m : mst) : cres (nat * mst) :=
    match find_addr m (CTerm act) (tbl m) with
    | Some x => cdo m <- incref (Some x) m; Fine (x, m)
    | None => let (n, m) := new_object (CTerm act) m in Fine (n, set_item n m)
    end.

  (** cbddmodule.cpp:713-748 gc_node_cache *)
  Definition gc_scan (m : mst) : list nat := filter (fun x => cnt m x =? 2) (tbl m).
  Definition gc_push (r : ref) (m : mst) (next : list nat) : cres (list nat) :=
    match r with
    | None => Fine next
    | Some a => cdo _ <- load m a; Fine (if cnt m a =? 3 then next ++ [a] else next)
    end.
  Definition gc_one (mn : mst * list nat) (x : nat) : cres (mst * list nat) :=
    let (m, next) := mn in
    cdo c <- load m x;
    if negb (cnt m x =? 2) then Fault AssertFailed else
    cdo next <- gc_push (cell_zero c) m next;
    cdo next <- gc_push (cell_one c) m next;
    cdo m <- del_item m x;
    Fine (m, next).
  (** The while loop, for at most [rounds] rounds. *)
  Fixpoint gc_loop (rounds : nat) (to_remove : list nat) (m : mst) : cres mst :=
    match to_remove with
    | [] => Fine m
    | _ :: _ =>
      match rounds with
      | O => Fault StillRunning
      | S k => cdo (m, next) <- cfold gc_one (m, []) to_remove; gc_loop k next m
      end
    end.
  Definition gc_node_cache (m : mst) : cres mst := gc_loop (List.length (tbl m)) (gc_scan m) m.

  (** The whole process. [slots] are the BDD objects of the client: None once dropped,
      otherwise the root. One list holds the entries of MERGE_CACHE, DIFFERENCE_CACHE and
      INTERSECTION_CACHE, tagged with the operation. *)
  Record est := mke {
    ms : mst;
    oc : list (okey * ref);
    rc : list (rkey * ref);
    slots : list (option ref);
    thr : Z;
    time : nat }.
  Definition with_ms (s : est) (m : mst) : est := mke m (oc s) (rc s) (slots s) (thr s) (time s).
  Definition on_ms (f : mst -> cres mst) (s : est) : cres est := cdo m <- f (ms s); Fine (with_ms s m).

  (** Which entries an LRU still has after its n-th insertion: any. *)
  Context (okeep : nat -> okey -> bool) (rkeep : nat -> rkey -> bool).
  Definition oentry_refs (e : okey * ref) : list ref := let '((_, a, b), r) := e in [a; b; r].
  Definition rentry_refs (e : rkey * ref) : list ref := [snd e].
  Definition is_key {K V} (eqd : forall x y : K, {x = y} + {x <> y}) (k : K) (e : K * V) : bool :=
    if eqd (fst e) k then true else false.

  (** PyObject_SetItem on an LRU whose key tuple (owned by the caller) becomes part of the
      entry: the value gains a reference; an older entry for the key and the entries that
      fall out lose theirs. *)
  Definition ocache_put (k : okey) (r : ref) (s : est) : cres est :=
    cdo m <- incref r (ms s);
    let old := filter (is_key okey_eq_dec k) (oc s) in
    let l := (k, r) :: filter (fun e => negb (is_key okey_eq_dec k e)) (oc s) in
    let out := filter (fun e => negb (okeep (time s) (fst e))) l in
    cdo m <- decrefs (flat_map oentry_refs (old ++ out)) m;
    Fine (mke m (filter (fun e => okeep (time s) (fst e)) l) (rc s) (slots s) (thr s) (S (time s))).
  (** RULE_CACHE holds its values, but of the terminal only the number id(term). *)
  Definition rcache_put (k : rkey) (r : ref) (s : est) : cres est :=
    cdo m <- incref r (ms s);
    let old := filter (is_key rkey_eq_dec k) (rc s) in
    let l := (k, r) :: filter (fun e => negb (is_key rkey_eq_dec k e)) (rc s) in
    let out := filter (fun e => negb (rkeep (time s) (fst e))) l in
    cdo m <- decrefs (flat_map rentry_refs (old ++ out)) m;
    Fine (mke m (oc s) (filter (fun e => rkeep (time s) (fst e)) l) (slots s) (thr s) (S (time s))).

  (** IS_DIFFERING is the first object made (958-963). *)
  Definition differing : ref := Some (alloc 0 []).
  (** The tests before the cache is asked: 449-454, 502-518, 578-592, 641-645. *)
  Definition c_stop (op : opk) (a b : ref) (m : mst) : cres (option ref) :=
    match op with
    | Merge =>
      match a, b with
      | None, _ => Fine (Some b)
      | Some _, None => Fine (Some a)
      | Some i, Some _ => cdo c <- load m i; Fine (if cell_hn c then None else Some a)
      end
    | Diff =>
      if ref_eq_dec a b then Fine (Some None) else
      match a, b with
      | None, _ => Fine (Some differing)
      | Some i, None => cdo c <- load m i; Fine (if is_term c then Some differing else None)
      | Some i, Some j => cdo c <- load m i; cdo d <- load m j;
                          Fine (if is_term c && is_term d then Some differing else None)
      end
    | Sub =>
      if ref_eq_dec a b then Fine (Some None) else
      match a, b with
      | None, _ => Fine (Some None)
      | Some _, None => Fine (Some a)
      | Some i, Some j => cdo c <- load m i; cdo d <- load m j;
                          Fine (if is_term c && is_term d then Some a else None)
      end
    | Inter =>
      match a, b with
      | None, _ => Fine (Some None)
      | Some _, None => Fine (Some None)
      | Some _, Some _ => Fine (if ref_eq_dec a b then Some a else None)
      end
    end.
  (** The arguments of the two recursive calls: 469-489, 534-565, 609-630, 662-683. *)
  Definition c_split (a b : ref) (m : mst) : cres (Z * (ref * ref) * (ref * ref)) :=
    match a, b with
    | Some i, Some j =>
      cdo c <- load m i; cdo d <- load m j;
      if cell_num c =? cell_num d then
        Fine (cell_num c, (cell_zero c, cell_zero d), (cell_one c, cell_one d))
      else if cell_num c <? cell_num d then
        Fine (cell_num c, (cell_zero c, b), (cell_one c, b))
      else if cell_num d <? TERM_NUM then
        Fine (cell_num d, (a, cell_zero d), (a, cell_one d))
      else Fault AssertFailed
    | Some i, None => cdo c <- load m i; Fine (cell_num c, (cell_zero c, None), (cell_one c, None))
    | None, _ => Fault UseAfterFree
    end.
  (** MC = DC = IC = 1 (31-42), SC = 0 (574). *)
  Definition cached_op (op : opk) : bool := match op with Sub => false | _ => true end.
  (** C++ leaves open which argument of get_node is computed first. *)
  Context (right_first : bool).
  (** _meld_recursive (446-497), _difference_recursive (499-572), _subtract_recursive
      (575-637), _intersection_recursive (639-690): the same text after the tests. Results
      are borrowed. Unlike in bdd.py a cached None is a hit. *)
  Fixpoint c_op (fuel : nat) (op : opk) (a b : ref) (s : est) : cres (ref * est) :=
    match fuel with
    | O => Fault StackOverflow
    | S f =>
      cdo stop <- c_stop op a b (ms s);
      match stop with
      | Some r => Fine (r, s)
      | None =>
        cdo s <- (if cached_op op then on_ms (increfs [a; b]) s else Fine s);
        match (if cached_op op then assoc okey_eq_dec (op, a, b) (oc s) else None) with
        | Some r =>
          cdo s <- on_ms (increfs [r]) s;
          cdo s <- on_ms (decrefs [a; b; r]) s;
          Fine (r, s)
        | None =>
          cdo (num, (a0, b0), (a1, b1)) <- c_split a b (ms s);
          cdo (r0, r1, s) <-
            (if right_first then
               cdo (r1, s) <- c_op f op a1 b1 s; cdo (r0, s) <- c_op f op a0 b0 s; Fine (r0, r1, s)
             else
               cdo (r0, s) <- c_op f op a0 b0 s; cdo (r1, s) <- c_op f op a1 b1 s; Fine (r0, r1, s));
          cdo (r, m) <- get_node num r0 r1 (ms s);
          let s := with_ms s m in
          cdo s <- (if cached_op op then ocache_put (op, a, b) r s else Fine s);
          Fine (r, s)
        end
      end
    end.

  (** cbddmodule.cpp:822-851 wc_to_BDD: a borrowed reference, before the Py_INCREF. *)
  Context (SHIFT : Z).
  Definition c_wc_step (wc : Z) (rm : ref * mst) (offset : Z) : cres (ref * mst) :=
    let (cnode, m) := rm in
    let d := c_wc_bit SHIFT wc offset in
    if d =? 1 then get_node (NB - 1 - offset) cnode None m
    else if d =? 2 then get_node (NB - 1 - offset) None cnode m
    else Fine (cnode, m).
  (** A new BDD object takes over one reference to its root. *)
  Definition add_slot (r : ref) (s : est) : est := mke (ms s) (oc s) (rc s) (slots s ++ [Some r]) (thr s) (time s).
  (** cbdd.py:147-171 wc_to_BDD. [cnode] and [term] are one local reference. *)
  Definition c_wc (wc : Z) (act : A) (s : est) : cres est :=
    if wc =? 0 then Fine (add_slot None s)
    else
      cdo (t, m) <- check_term act (ms s);
      let s := with_ms s m in
      match assoc rkey_eq_dec (wc, t) (rc s) with
      | Some (Some r) =>
        cdo s <- on_ms (increfs [Some r]) s;
        cdo s <- on_ms (decrefs [Some t]) (add_slot (Some r) s);
        Fine s
      | _ =>
        cdo (r, m) <- cfold (c_wc_step wc) (Some t, ms s) (seqZ (Z.to_nat NB));
        cdo s <- on_ms (increfs [r]) (with_ms s m);
        cdo s <- rcache_put (wc, t) r (add_slot r s);
        on_ms (decrefs [Some t]) s
      end.

  (** cbddmodule.cpp:750-756 memory_cleanup *)
  Definition memory_cleanup (s : est) : cres est :=
    if negb (thr s =? 0) && (thr s <? Z.of_nat (List.length (tbl (ms s)))) then on_ms gc_node_cache s else Fine s.
  Definition get_slot (s : est) (i : nat) : cres ref :=
    match nth_error (slots s) i with Some (Some r) => Fine r | _ => Fault NoSuchHandle end.
  (** cbddmodule.cpp:764-816 with cbdd.py:40-58. The argument tuple holds both roots. *)
  Definition c_binop (op : opk) (i j : nat) (s : est) : cres est :=
    cdo a <- get_slot s i; cdo b <- get_slot s j;
    cdo s <- on_ms (increfs [a; b]) s;
    cdo s <- memory_cleanup s;
    cdo (r, s) <- c_op frames op a b s;
    cdo s <- on_ms (increfs [r]) s;
    on_ms (decrefs [a; b]) (add_slot r s).
  (** The last reference to a BDD object goes away. *)
  Definition c_drop (i : nat) (s : est) : cres est :=
    cdo r <- get_slot s i;
    on_ms (decrefs [r]) (mke (ms s) (oc s) (rc s) (firstn i (slots s) ++ None :: skipn (S i) (slots s)) (thr s) (time s)).

  (** cbddmodule.cpp:853-862 set_cleanup_threshold: whether ValueError was raised, and the
      new state. PyArg_ParseTuple has stored the number by the time it is tested. *)
  Definition set_cleanup_threshold (n : Z) (s : est) : bool * est :=
    (n <? 0, mke (ms s) (oc s) (rc s) (slots s) n (time s)).

  (** A client: BDD(), wc_to_BDD, the four operations, dropping a BDD, and the functions
      gc_node_cache and set_cleanup_threshold, whose ValueError the client may catch. *)
  Inductive ccmd := XEmpty | XWc (wc : Z) (act : A) | XOp (op : opk) (i j : nat) | XDrop (i : nat) | XGc | XThreshold (n : Z).
  Definition c_step (c : ccmd) (s : est) : cres est :=
    match c with
    | XEmpty => Fine (add_slot None s)
    | XWc wc act => c_wc wc act s
    | XOp op i j => c_binop op i j s
    | XDrop i => c_drop i s
    | XGc => on_ms gc_node_cache s
    | XThreshold n => Fine (snd (set_cleanup_threshold n s))
    end.
  Definition c_run (cs : list ccmd) (s : est) : cres est := cfold (fun s c => c_step c s) s cs.

  (** cbddmodule.cpp:910-966 moduleinit: IS_DIFFERING is held by the C variable, by the
      module and (cbdd.py:25-28) by the importing module. The threshold is 1000000 (86). *)
  Definition perm : list ref := [differing; differing; differing].
  Definition c_init (differs : A) : est :=
    let (d, m) := new_object (CTerm differs) (mkm (fun _ => None) (fun _ => 0) [] 0) in
    mke (set_item d (mkm (mem m) (upd (cnt m) d 3) (tbl m) (clock m))) [] [] [] 1000000 0.
End Engine.
Arguments mst : clear implicits.
Arguments est : clear implicits.
Arguments ccmd : clear implicits.
