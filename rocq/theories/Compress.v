(** Ruleset compression. Models ofequivalence/ruleset.py:174-460 and rule.py:741-742.

    Rule objects are positions in the ruleset: inside UniqueRules (compress_ruleset) dict keys
    compare by identity. The objects of the ruleset are distinct. *)
From Verif Require Export DepsInd.
Local Open Scope string_scope.
Local Open Scope list_scope.
Local Open Scope Z_scope.

(** ** Sets and dicts of rules *)
Definition nin (x : nat) (l : list nat) : bool := existsb (Nat.eqb x) l.
(** set(l): without duplicates; the iteration order is a parameter where it matters *)
Definition to_set (l : list nat) : list nat := fold_left set_add l [].
Definition inter (a b : list nat) : list nat := filter (fun x => nin x b) a.
Definition minus (a b : list nat) : list nat := filter (fun x => negb (nin x b)) a.
Definition seteq (a b : list nat) : bool := forallb (fun x => nin x b) a && forallb (fun x => nin x a) b.
(** the dict groups: representative -> rules, in order of insertion *)
Definition gdict := list (nat * list nat).
Fixpoint gget (d : gdict) (k : nat) : result (list nat) :=
  match d with [] => Err KeyError | (k', v) :: t => if Nat.eqb k' k then Ok v else gget t k end.
Fixpoint gset (d : gdict) (k : nat) (v : list nat) : gdict :=
  match d with [] => [(k, v)] | (k', v') :: t => if Nat.eqb k' k then (k', v) :: t else (k', v') :: gset t k v end.
Definition gdel (d : gdict) (k : nat) : gdict := filter (fun x => negb (Nat.eqb (fst x) k)) d.
(** the dict rule2group *)
Definition rdict := nat -> option nat.
Definition rget (m : rdict) (k : nat) : result nat := match m k with Some v => Ok v | None => Err KeyError end.
Definition rset (m : rdict) (k v : nat) : rdict := fun x => if Nat.eqb x k then Some v else m x.
Definition rset_all (m : rdict) (ks : list nat) (v : nat) : rdict := fold_left (fun m k => rset m k v) ks m.
Definition rgets (m : rdict) (ks : list nat) : result (list nat) := rall (map (rget m) ks).

(** ** The dependency tree: the attributes parents and children of each rule *)
Record tree := mkTree { tparents : nat -> list nat; tchildren : nat -> list nat }.
Definition upd (f : nat -> list nat) (k : nat) (v : list nat) : nat -> list nat := fun x => if Nat.eqb x k then v else f x.
(** 174-186 node_to_tree *)
Definition node_to_tree (deps : list edge) : tree :=
  fold_left (fun t e => let (parent, child) := (e : edge) in
    mkTree (upd (tparents t) child (tparents t child ++ [parent])) (upd (tchildren t) parent (tchildren t parent ++ [child])))
    deps (mkTree (fun _ => []) (fun _ => [])).

(** list.remove *)
Fixpoint lremove (x : nat) (l : list nat) : result (list nat) :=
  match l with [] => Err ValueError | y :: t => if Nat.eqb x y then Ok t else do t' <- lremove x t; Ok (y :: t') end.
(** 198-202 get_parents. [fuel] bounds the depth of the recursion. *)
Fixpoint get_parents (fuel : nat) (t : tree) (n : nat) : result (list nat) :=
  match fuel with
  | O => Err RecursionError
  | S fuel => do l <- rall (map (get_parents fuel t) (tparents t n)); Ok (tparents t n ++ List.concat l)
  end.
(** 195-209: one iteration of the loop over the nodes; the order of the set of line 207 does not matter *)
Definition simplify_node (fuel : nat) (t : tree) (n : nat) : result tree :=
  do l <- rall (map (get_parents fuel t) (tparents t n));
  rfold (fun t item =>
    do c <- lremove n (tchildren t item);
    let t := mkTree (tparents t) (upd (tchildren t) item c) in
    do p <- lremove item (tparents t n);
    Ok (mkTree (upd (tparents t) n p) (tchildren t))) (inter (to_set (tparents t n)) (List.concat l)) t.
(** 189-209 simplify_tree *)
Definition simplify_tree (fuel : nat) (t : tree) (nodes : list nat) : result tree := rfold (simplify_node fuel) nodes t.

(** ** create_similar_groups *)
(** str() of an action type: a tuple prints its quotes and brackets *)
Definition type_str (t : atype) : string := match t with TName n => n | TSet f => "('SET_FIELD', '" ++ f ++ "')" end.
Definition str_le (a b : string) : bool := match String.compare a b with Gt => false | _ => true end.
Definition add_type (l : list atype) (t : atype) : list atype := if type_in t l then l else l ++ [t].
(** (table, -priority, mask, goto, actions) *)
Record simkey := mkKey { ktable : Z; kprio : Z; kmask : Z; kgoto : Z; kacts : list atype }.
(** 224-240 _get_similar_tuple. Types with the same str() are not told apart by the sort; the
    names of the actions are plain identifiers. *)
Definition similar_key (R : core) : result simkey :=
  let i := inst R in
  do ws <- rall (map to_type (List.concat (action_levels (write_actions i))));
  do aps <- rall (map to_type (List.concat (action_levels (apply_actions i))));
  do wc <- match_wc (rmatch R);
  Ok (mkKey (table R) (- priority R) (get_wildcard_mask wc) (match goto_table i with Some t => t | None => 0 end)
    (sort_by (fun a b => str_le (type_str a) (type_str b)) (fold_left add_type (ws ++ aps) []))).
(** Comparing tuples in Python 3: the first difference decides; a str and a tuple have no order *)
Fixpoint types_cmp (a b : list atype) : result comparison :=
  match a, b with
  | [], [] => Ok Eq
  | [], _ => Ok Lt
  | _, [] => Ok Gt
  | TName n :: a, TName m :: b => match String.compare n m with Eq => types_cmp a b | c => Ok c end
  | TSet n :: a, TSet m :: b => match String.compare n m with Eq => types_cmp a b | c => Ok c end
  | _, _ => Err TypeError
  end.
Definition sim_cmp (a b : simkey) : result comparison :=
  match ktable a ?= ktable b with
  | Eq => match kprio a ?= kprio b with
    | Eq => match kmask a ?= kmask b with
      | Eq => match kgoto a ?= kgoto b with
        | Eq => types_cmp (kacts a) (kacts b)
        | c => Ok c end
      | c => Ok c end
    | c => Ok c end
  | c => Ok c
  end.
Definition sim_le (a b : simkey) : bool := match sim_cmp a b with Ok Gt => false | Ok _ => true | Err _ => false end.
Definition sim_eq (a b : simkey) : bool := match sim_cmp a b with Ok Eq => true | _ => false end.
(** 264 sorted by the key. Whatever comparisons the sort makes, it meets two keys without an
    order if there are any: between them in the sorted list every key has the same kinds of
    actions up to the place where they differ in kind. *)
Definition similar_sort (l : list (simkey * nat)) : result (list (simkey * nat)) :=
  if forallb (fun x => forallb (fun y => is_ok (sim_cmp (fst x) (fst y))) l) l
  then Ok (sort_by (fun x y => sim_le (fst x) (fst y)) l) else Err TypeError.
(** 265 itertools.groupby *)
Fixpoint groupby (l : list (simkey * nat)) : list (simkey * list nat) :=
  match l with
  | [] => []
  | (k, x) :: t => match groupby t with
    | (k', g) :: r => if sim_eq k k' then (k, x :: g) :: r else (k, [x]) :: (k', g) :: r
    | [] => [(k, [x])]
    end
  end.
(** 242-245 _get_p_and_c: the positions of the parents and of the children, sorted *)
Fixpoint nats_cmp (a b : list nat) : comparison :=
  match a, b with
  | [], [] => Eq
  | [], _ => Lt
  | _, [] => Gt
  | x :: a, y :: b => match Nat.compare x y with Eq => nats_cmp a b | c => c end
  end.
Definition pc_le (t : tree) (a b : nat) : bool :=
  let s := sort_by Nat.leb in
  match nats_cmp (s (tparents t a)) (s (tparents t b)) with
  | Lt => true
  | Gt => false
  | Eq => match nats_cmp (s (tchildren t a)) (s (tchildren t b)) with Gt => false | _ => true end
  end.
(** [groups[l[0]] = l] *)
Definition put_group (d : gdict) (l : list nat) : result gdict :=
  match l with [] => Err IndexError | x :: _ => Ok (gset d x l) end.
(** 262-273 *)
Definition first_groups (rules : list rule) (t : tree) : result (gdict * rdict) :=
  do ks <- rall (map (fun x => do k <- similar_key (rcore (snd x)); Ok (k, fst x)) (objects rules));
  do l <- similar_sort ks;
  do d <- rfold (fun d g => put_group d (sort_by (pc_le t) (snd g))) (groupby l) [];
  Ok (d, fold_left (fun m g => rset_all m (snd g) (fst g)) d (fun _ => None)).
(** 280-284: the dict new_groups, keyed by two frozensets *)
Definition parts := list ((list nat * list nat) * list nat).
Fixpoint part_add (d : parts) (p c : list nat) (x : nat) : parts :=
  match d with
  | [] => [((p, c), [x])]
  | ((p', c'), l) :: t => if seteq p' p && seteq c' c then ((p', c'), l ++ [x]) :: t else ((p', c'), l) :: part_add t p c x
  end.
Definition split_rules (t : tree) (m : rdict) (rules : list nat) : result parts :=
  rfold (fun d x => do p <- rgets m (tparents t x); do c <- rgets m (tchildren t x); Ok (part_add d p c x)) rules [].
(** 277-285: the first group with a difference *)
Fixpoint find_split (t : tree) (m : rdict) (d : gdict) : result (option (nat * list (list nat))) :=
  match d with
  | [] => Ok None
  | (g, rules) :: rest =>
    if Nat.eqb (List.length rules) 1 then find_split t m rest else
    do ps <- split_rules t m rules;
    if (1 <? List.length ps)%nat then Ok (Some (g, map snd ps)) else find_split t m rest
  end.
(** 276-291. [fuel] bounds the number of splits. *)
Fixpoint split_loop (fuel : nat) (t : tree) (d : gdict) (m : rdict) : result (gdict * rdict) :=
  match fuel with
  | O => Err OutOfFuel
  | S fuel =>
    do f <- find_split t m d;
    match f with
    | None => Ok (d, m)
    | Some (g, ls) =>
      do (d, m) <- rfold (fun s l => match l with [] => Err IndexError | x :: _ => Ok (gset (fst s) x l, rset_all (snd s) l x) end) ls (gdel d g, m);
      split_loop fuel t d m
    end
  end.
(** 212-292 create_similar_groups, with the dependencies given *)
Definition create_similar_groups (rules : list rule) (deps : list edge) : result (gdict * rdict) :=
  let t := node_to_tree deps in
  do (d, m) <- first_groups rules t;
  split_loop (S (List.length rules)) t d m.

(** ** select_compressed_ruleset *)
Section Select.
  (** the order in which a set is iterated *)
  Context (ord : list nat -> list nat) (rules : list rule) (t : tree).
  (** 34-48: sort_ruleset on rule objects *)
  Definition skey (i : nat) : Z * Z :=
    match nth_error rules i with Some R => (table (rcore R), - priority (rcore R)) | None => (0, 0) end.
  Definition skey_le (a b : nat) : bool := (fst (skey a) <? fst (skey b)) || ((fst (skey a) =? fst (skey b)) && (snd (skey a) <=? snd (skey b))).
  Definition sort_ids (l : list nat) : list nat := sort_by skey_le l.

  Record sel := mkSel { sgroups : gdict; srep : rdict; sassigned : list nat }.
  (** 304-312 _check_option_full *)
  Definition check_option_full (s : sel) (x : nat) : result (list nat * list nat) :=
    let deps := to_set (tchildren t x ++ tparents t x) in
    do gs <- rgets (srep s) deps;
    Ok (inter (to_set gs) (sassigned s), inter deps (sassigned s)).
  (** 314-327 _check_option *)
  Definition check_option (s : sel) (x : nat) : result (list nat * list nat) :=
    let children := to_set (tchildren t x) in
    do gs <- rgets (srep s) children;
    Ok (to_set gs, inter children (sassigned s)).
  (** 294-302 _allowed_options *)
  Definition allowed_options (s : sel) (x : nat) : result (list nat) :=
    do g <- rget (srep s) x;
    do options <- gget (sgroups s) g;
    do l <- rall (map (fun o => do eo <- check_option_full s o; Ok (if seteq (fst eo) (snd eo) then [o] else [])) options);
    Ok (to_set (List.concat l)).
  (** list.index *)
  Fixpoint index_of (x : nat) (l : list nat) : result nat :=
    match l with [] => Err ValueError | y :: l => if Nat.eqb x y then Ok O else do k <- index_of x l; Ok (S k) end.
  (** l[0], l[k] = l[k], l[0] *)
  Definition swap0 (k : nat) (l : list nat) : list nat :=
    match l, k with
    | x :: r, S k' => nth k' r x :: firstn k' r ++ x :: skipn (S k') r
    | _, _ => l
    end.
  (** 329-346 _switch_assigned *)
  Definition switch_assigned (s : sel) (new : nat) : result sel :=
    do old <- rget (srep s) new;
    if Nat.eqb old new then Ok s else
    do options <- gget (sgroups s) old;
    do k <- index_of new options;
    if (0 <? k)%nat then
      Ok (mkSel (gset (gdel (sgroups s) old) new (swap0 k options)) (rset_all (srep s) options new)
        (if nin old (sassigned s) then set_add (filter (fun x => negb (Nat.eqb x old)) (sassigned s)) new else sassigned s))
    else Err AssertionError.
  (** 371-376: the first option that fits *)
  Fixpoint first_option (s : sel) (l : list nat) : result (option nat) :=
    match l with
    | [] => Ok None
    | o :: l => do eo <- check_option s o; if seteq (fst eo) (snd eo) then Ok (Some o) else first_option s l
    end.
  (** 394-398: can a valid rule be picked from all the groups? *)
  Fixpoint can_move (s : sel) (x : nat) (l : list nat) : result bool :=
    match l with
    | [] => Ok true
    | y :: l => do a <- allowed_options s y; match inter a (tchildren t x) with [] => Ok false | _ => can_move s x l end
    end.
  (** 400-408 *)
  Definition move_all (s : sel) (x : nat) (l : list nat) : result sel :=
    do s <- rfold (fun s y =>
      do a <- allowed_options s y;
      match ord (inter a (to_set (tchildren t x))) with [] => Err IndexError | c :: _ => switch_assigned s c end) l s;
    do a <- allowed_options s x;
    if nin x a then switch_assigned s x else Err AssertionError.
  (** 392-415. trepan is not a dependency of the package: importing it fails. *)
  Fixpoint shift_rules (s : sel) (l : list (nat * list nat)) : result (sel * nat) :=
    match l with
    | [] => Err ImportError
    | (x, diff) :: l =>
      do b <- can_move s x (ord diff);
      if b : bool then do s <- move_all s x (ord diff); Ok (s, x) else shift_rules s l
    end.
  (** 367-416: one group *)
  Definition assign_group (s : sel) (g : nat) : result sel :=
    do options <- gget (sgroups s) g;
    do o <- first_option s options;
    do (s, x) <- match o with
      | Some o => do s <- switch_assigned s o; Ok (s, o)
      | None =>
        do diffs <- rall (map (fun o => do eo <- check_option_full s o; Ok (o, minus (fst eo) (snd eo))) options);
        shift_rules s (sort_by (fun a b => (List.length (snd a) <=? List.length (snd b))%nat) diffs)
      end;
    Ok (mkSel (sgroups s) (srep s) (set_add (sassigned s) x)).
  (** 349-418 select_compressed_ruleset; the dicts are changed in place. The loop pops from the end. *)
  Definition select_compressed (d : gdict) (m : rdict) : result (list nat * gdict * rdict) :=
    match rev (sort_ids (map fst d)) with
    | [] => Err IndexError
    | g :: todo =>
      do s <- rfold assign_group todo (mkSel d m [g]);
      Ok (sort_ids (ord (sassigned s)), sgroups s, srep s)
    end.
End Select.

(** 421-460 compress_ruleset, with the dependencies given *)
Definition compress_deps (ord : list nat -> list nat) (rules : list rule) (deps : list edge) : result (list nat * gdict) :=
  do (d, m) <- create_similar_groups rules deps;
  do r <- select_compressed ord rules (node_to_tree deps) d m;
  let '(_, d, _) := r in Ok (sort_ids rules (map fst d), d).
(** without: those of the indirect builder (line 254), a list in the order of a set *)
Definition compress_ruleset (ord : list nat -> list nat) (edge_ord : list edge -> list edge) (rules : list rule) : st (list nat * gdict) :=
  sdo e <- ind_ruleset_deps 2 1 false rules;
  slift (compress_deps ord rules (edge_ord e)).
