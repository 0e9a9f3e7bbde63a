(** What a program using the CUDD backend should compute and keep, without reference counts. *)
From Verif Require Import SpecBdd CuddRefs.
Local Open Scope list_scope.
Local Open Scope Z_scope.

(** The value of every BDD object the program has made so far: [None] is gone, [Some None] was never initialised. *)
Definition kroot (vs : list (option (option add))) (i : nat) : option add :=
  match nth_error vs i with Some (Some r) => r | _ => None end.
Definition kput (vs : list (option (option add))) (i : nat) (v : option (option add)) := firstn i vs ++ v :: skipn (S i) vs.
Definition kval (SHIFT : Z) (vs : list (option (option add))) (c : kcmd) : list (option (option add)) :=
  match c with
  | KNew a => vs ++ [Some (Some (AConst a))]
  | KBare => vs ++ [Some None]
  | KInit i a => kput vs i (Some (Some (AConst a)))
  | KWc wc t => vs ++ [Some (Some (cudd_wc_to_BDD SHIFT wc t))]
  | KOp o (AObj i) (AObj j) =>
    match kroot vs i, kroot vs j with Some f, Some g => vs ++ [Some (Some (addApply (cudd_fun o) f g))] | _, _ => vs end
  | KOp _ _ _ => vs
  | KChild one i => vs ++ [match kroot vs i with Some (ANode _ T E) => Some (Some (if one then T else E)) | _ => None end]
  | KDrop i => kput vs i None
  | KRead _ => vs
  end.
Definition kvals (SHIFT : Z) (cs : list kcmd) (vs : list (option (option add))) := fold_left (kval SHIFT) cs vs.

(** A program that uses only objects it still holds, and that gives initialised BDDs to the operators. *)
Definition kheld (vs : list (option (option add))) (i : nat) : Prop := exists r, nth_error vs i = Some (Some r).
Definition kok (vs : list (option (option add))) (c : kcmd) : Prop :=
  match c with
  | KWc wc t => wc = 0 \/ wc_ok wc /\ t <> 0
  | KOp _ (AObj i) (AObj j) => kroot vs i <> None /\ kroot vs j <> None
  | KOp _ _ _ => False
  | KInit i _ | KChild _ i | KDrop i => kheld vs i
  | KRead i => kroot vs i <> None
  | _ => True
  end.
Fixpoint koks (SHIFT : Z) (vs : list (option (option add))) (cs : list kcmd) : Prop :=
  match cs with [] => True | c :: t => kok vs c /\ koks SHIFT (kval SHIFT vs c) t end.

(** The roots of the objects that exist. *)
Definition kroots (vs : list (option (option add))) : list add :=
  flat_map (fun v => match v with Some (Some f) => [f] | _ => [] end) vs.
(** The nodes of a diagram other than the constant 0, and those below its root. *)
Fixpoint nodes (f : add) : list add :=
  match f with
  | AConst v => if v =? 0 then [] else [AConst v]
  | ANode i T E => ANode i T E :: nodes T ++ nodes E
  end.
Definition nodes_below (f : add) : list add := match f with AConst _ => [] | ANode _ T E => nodes T ++ nodes E end.
(** The number of positions of a wildcard that are not x. *)
Definition exact_bits (wc : Z) : nat :=
  List.length (filter (fun i => negb (Z.testbit wc (2 * i) && Z.testbit wc (2 * i + 1))) (seqZ (Z.to_nat NB))).

(** The references a program takes and nobody gives back: one for every node below the root of each
    BDD made from a wildcard, and one for a root that is overwritten by a second [__init__]. *)
Definition kleak (SHIFT : Z) (vs : list (option (option add))) (c : kcmd) : list add :=
  match c with
  | KWc wc t => nodes_below (cudd_wc_to_BDD SHIFT wc t)
  | KInit i _ => match kroot vs i with Some f => [f] | None => [] end
  | _ => []
  end.
Fixpoint kleaks (SHIFT : Z) (vs : list (option (option add))) (cs : list kcmd) : list add :=
  match cs with [] => [] | c :: t => kleak SHIFT vs c ++ kleaks SHIFT (kval SHIFT vs c) t end.
