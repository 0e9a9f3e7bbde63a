(** The reference counts of the CUDD backend: c_src/cuddmodule.c and cuddbdd.py. CUDD is not part of
    /repo; its contract (CUDD manual, sections 4.4 and 5; cuddInt.h) is modelled as follows. The
    unique table holds each node once, so a node is its structure. [crefs] is the multiset of references taken
    with Cudd_Ref and not yet given back. A node is protected if it is below a referenced one, or
    the constant 0 (which CUDD keeps). Every call that may create nodes may collect
    garbage: then only protected nodes survive, and the arguments of the call have to be among them.
    The node that such a call returns survives until the next one ([cfresh]). Counts do not overflow. *)
From Verif Require Export Bdd.
Local Open Scope list_scope.
Local Open Scope Z_scope.

(** [CFreed]: a node was used that may have been freed; [CUnder]: a reference was given back that had not been
    taken; [CNull]: a NULL pointer was followed. *)
Inductive cres (A : Type) := CFine (a : A) | CFreed | CUnder | CNull.
Arguments CFine {A} a. Arguments CFreed {A}. Arguments CUnder {A}. Arguments CNull {A}.
Definition cbind {A B} (x : cres A) (f : A -> cres B) : cres B :=
  match x with CFine a => f a | CFreed => CFreed | CUnder => CUnder | CNull => CNull end.
Notation "'cdo' x <- e ; f" := (cbind e (fun x => f)) (at level 200, x pattern, e at level 100, f at level 200).

(** The manager, and the BDD objects Python has made: [None] is deallocated, [Some None] has the root NULL. *)
Record cuddst := CuddSt { crefs : list add; cfresh : option add; cobjs : list (option (option add)) }.
Definition with_crefs (s : cuddst) (l : list add) : cuddst := CuddSt l (cfresh s) (cobjs s).
Definition with_cobjs (s : cuddst) (l : list (option (option add))) : cuddst := CuddSt (crefs s) (cfresh s) l.

(** ** CUDD (contract) *)
Definition add_eqb (f g : add) : bool := if add_eq_dec f g then true else false.
Fixpoint in_add (f g : add) : bool :=
  add_eqb f g || match g with AConst _ => false | ANode _ T E => in_add f T || in_add f E end.
Definition protected_b (s : cuddst) (f : add) : bool := add_eqb f BK || existsb (in_add f) (crefs s).
(** Cudd_addConst *)
Definition api_const (v : Z) (s : cuddst) : cres (add * cuddst) := CFine (AConst v, CuddSt (crefs s) (Some (AConst v)) (cobjs s)).
(** cuddUniqueInter: no test for T = E *)
Definition api_inter (i : Z) (T E : add) (s : cuddst) : cres (add * cuddst) :=
  if protected_b s T && protected_b s E then CFine (ANode i T E, CuddSt (crefs s) (Some (ANode i T E)) (cobjs s)) else CFreed.
(** Cudd_addApply *)
Definition api_apply (op : add -> add -> option add) (f g : add) (s : cuddst) : cres (add * cuddst) :=
  if protected_b s f && protected_b s g then CFine (addApply op f g, CuddSt (crefs s) (Some (addApply op f g)) (cobjs s)) else CFreed.
(** Cudd_Ref *)
Definition api_ref (f : add) (s : cuddst) : cres cuddst :=
  if protected_b s f || match cfresh s with Some g => in_add f g | None => false end then CFine (with_crefs s (f :: crefs s)) else CFreed.
(** Cudd_Deref, and Cudd_RecursiveDeref, which differ in when the nodes below are given up *)
Fixpoint remove_one (f : add) (l : list add) : option (list add) :=
  match l with
  | [] => None
  | x :: t => if add_eq_dec f x then Some t else option_map (cons x) (remove_one f t)
  end.
Definition api_deref (f : add) (s : cuddst) : cres cuddst :=
  match remove_one f (crefs s) with Some l => CFine (with_crefs s l) | None => CUnder end.

(** ** The module *)
(** cuddmodule.c:178-200 BDD_new and BDD_init: a new object, not yet stored anywhere *)
Definition bdd_make (action : Z) (s : cuddst) : cres (add * cuddst) :=
  cdo (f, s) <- api_const (encode_terminal action 0) s;
  cdo s <- api_ref f s;
  CFine (f, s).
(** the object made to hold a result: cuddmodule.c:555-558 and the like *)
Definition bdd_wrap (f : add) (s : cuddst) : cres cuddst :=
  cdo (z, s) <- bdd_make 0 s;
  cdo s <- api_deref z s;
  CFine (with_cobjs s (cobjs s ++ [Some (Some f)])).
(** an argument: a BDD object or None, which READY_BDD_TYPE makes NULL (cuddmodule.c:80-88) *)
Inductive carg := AObj (i : nat) | ANone.
Definition root_of (s : cuddst) (i : nat) : option add :=
  match nth_error (cobjs s) i with Some (Some r) => r | _ => None end.
Definition arg_root (s : cuddst) (a : carg) : option add := match a with AObj i => root_of s i | ANone => None end.
Inductive cuddop := UMeld | USubtract | UDifference | UDiffTagged | UIntersection.
Definition cudd_fun (o : cuddop) : add -> add -> option add :=
  match o with UMeld => addMeld | USubtract => addSubtract | UDifference => addDifference | UDiffTagged => addDiffTagged | UIntersection => addIntersection end.
(** cuddmodule.c:548-559 bmeld_recursive, 574-585, 602-613, 629-640, 657-668: the same for the five operators *)
Definition bdd_binop (o : cuddop) (a b : carg) (s : cuddst) : cres cuddst :=
  match arg_root s a, arg_root s b with
  | Some f, Some g =>
    cdo (r, s) <- api_apply (cudd_fun o) f g s;
    cdo s <- api_ref r s;
    bdd_wrap r s
  | _, _ => CNull
  end.
(** cuddmodule.c:709-737 oget_true, oget_false; the exception for a constant leaves no object *)
Definition bdd_child (one : bool) (i : nat) (s : cuddst) : cres cuddst :=
  match root_of s i with
  | Some (ANode _ T E) =>
    cdo (z, s) <- bdd_make 0 s;
    cdo s <- api_deref z s;
    let c := if one then T else E in
    cdo s <- api_ref c s;
    CFine (with_cobjs s (cobjs s ++ [Some (Some c)]))
  | _ => CFine (with_cobjs s (cobjs s ++ [None]))
  end.
(** cuddmodule.c:776-790, the body of the loop of wc_to_BDD *)
Definition wc_ref_step (SHIFT wc : Z) (x : cres (add * cuddst)) (offset : Z) : cres (add * cuddst) :=
  cdo (f, s) <- x;
  let d := c_wc_bit SHIFT wc offset in
  if d =? 1 then (cdo (tmp, s) <- api_inter (NB - 1 - offset) BK f s; cdo s <- api_ref tmp s; CFine (tmp, s))
  else if d =? 2 then (cdo (tmp, s) <- api_inter (NB - 1 - offset) f BK s; cdo s <- api_ref tmp s; CFine (tmp, s))
  else CFine (f, s).
(** cuddmodule.c:756-796 wc_to_BDD; cuddbdd.py:54-55 returns BDD() for the empty wildcard. [term] is the
    number cuddbdd.py:59-66 gives the action. *)
Definition bdd_wc (SHIFT wc term : Z) (s : cuddst) : cres cuddst :=
  if wc =? 0 then cdo (f, s) <- bdd_make 0 s; CFine (with_cobjs s (cobjs s ++ [Some (Some f)]))
  else
    cdo (f, s) <- api_const (encode_terminal term 0) s;
    cdo s <- api_ref f s;
    cdo (f, s) <- fold_left (wc_ref_step SHIFT wc) (seqZ (Z.to_nat NB)) (CFine (f, s));
    bdd_wrap f s.
Definition set_obj (i : nat) (x : option (option add)) (l : list (option (option add))) : list (option (option add)) :=
  firstn i l ++ x :: skipn (S i) l.
(** cuddmodule.c:172-176 BDD_dealloc, when Python drops the last reference to the object *)
Definition bdd_drop (i : nat) (s : cuddst) : cres cuddst :=
  match root_of s i with
  | Some f => cdo s <- api_deref f s; CFine (with_cobjs s (set_obj i None (cobjs s)))
  | None => CFine (with_cobjs s (set_obj i None (cobjs s)))
  end.
(** [b.__init__(action)] on an existing object: cuddmodule.c:189-199 *)
Definition bdd_reinit (i : nat) (action : Z) (s : cuddst) : cres cuddst :=
  cdo (f, s) <- bdd_make action s;
  CFine (with_cobjs s (set_obj i (Some (Some f)) (cobjs s))).
(** cuddmodule.c:396-442 BDD_to_wcs and BDDIterator: reading all nodes of a BDD *)
Definition bdd_read (i : nat) (s : cuddst) : cres (list (Z * (Z * Z))) :=
  match root_of s i with
  | Some f => if protected_b s f then CFine (cudd_to_wcs f) else CFreed
  | None => CNull
  end.
(** A client: any sequence of these. [KBare] is BDD.__new__(BDD). *)
Inductive kcmd :=
| KNew (action : Z) | KBare | KInit (i : nat) (action : Z) | KWc (wc term : Z) | KOp (o : cuddop) (a b : carg)
| KChild (one : bool) (i : nat) | KDrop (i : nat) | KRead (i : nat).
Definition k_step (SHIFT : Z) (s : cuddst) (c : kcmd) : cres cuddst :=
  match c with
  | KNew a => cdo (f, s) <- bdd_make a s; CFine (with_cobjs s (cobjs s ++ [Some (Some f)]))
  | KBare => CFine (with_cobjs s (cobjs s ++ [Some None]))
  | KInit i a => bdd_reinit i a s
  | KWc wc t => bdd_wc SHIFT wc t s
  | KOp o a b => bdd_binop o a b s
  | KChild one i => bdd_child one i s
  | KDrop i => bdd_drop i s
  | KRead i => cdo _ <- bdd_read i s; CFine s
  end.
Fixpoint k_run (SHIFT : Z) (cs : list kcmd) (s : cuddst) : cres cuddst :=
  match cs with [] => CFine s | c :: t => cdo s <- k_step SHIFT s c; k_run SHIFT t s end.
(** cuddmodule.c:881-894: DIFFERS is referenced when the module is loaded; BK is the constant 0 *)
Definition cudd_init : cuddst := CuddSt [DIFFERS] None [].
