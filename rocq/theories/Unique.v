(** UniqueRules. Models ofequivalence/rule.py:1234-1302 (the rebuilding of the mappings apart,
    see [exit]). *)
From Verif Require Export Base.

Section UniqueRules.
  (** the three methods __hash__, __eq__, __ne__ that Rule defines itself *)
  Context {methods : Type}.
  (** [own]: what is in Rule.__dict__ (None once deleted: object's identity comparison is
      inherited). [saved]: the _old_* attributes of each UniqueRules object, by object. *)
  Record cls := mkCls { own : option methods; saved : list (nat * methods) }.
  Fixpoint old (l : list (nat * methods)) (o : nat) : option methods :=
    match l with [] => None | (k, m) :: t => if Nat.eqb k o then Some m else old t o end.
  (** rule.py:1267-1274 *)
  Definition enter (o : nat) (s : cls) : cls :=
    match own s with
    | Some m => mkCls None ((o, m) :: saved s)
    | None => s
    end.
  (** rule.py:1293-1302. AttributeError means that this object saved nothing. The attributes
      are kept afterwards. rebuild_mappings changes the mappings only and is not modelled. *)
  Definition exit (o : nat) (s : cls) : cls :=
    match old (saved s) o with
    | Some m => mkCls (Some m) (saved s)
    | None => s
    end.

  (** A program using the context manager: look at the methods of Rule, raise an exception, or a
      with block around statements. __exit__ returns None, so exceptions carry on. *)
  Inductive stmt := Look | Raise | With (o : nat) (body : list stmt).
  (** state, what was seen, and whether an exception is on its way *)
  Fixpoint run (c : stmt) (s : cls) : cls * list (option methods) * bool :=
    match c with
    | Look => (s, [own s], false)
    | Raise => (s, [], true)
    | With o body =>
      let '(s', t, e) := (fix go (l : list stmt) (s : cls) : cls * list (option methods) * bool :=
          match l with
          | [] => (s, [], false)
          | c :: l' => let '(s1, t1, e1) := run c s in
                       if e1 then (s1, t1, true) else let '(s2, t2, e2) := go l' s1 in (s2, t1 ++ t2, e2)
          end) body (enter o s) in
      (exit o s', t, e)
    end.
  Fixpoint run_list (l : list stmt) (s : cls) : cls * list (option methods) * bool :=
    match l with
    | [] => (s, [], false)
    | c :: l' => let '(s1, t1, e1) := run c s in
                 if e1 then (s1, t1, true) else let '(s2, t2, e2) := run_list l' s1 in (s2, t1 ++ t2, e2)
    end.
End UniqueRules.
Arguments cls : clear implicits.
