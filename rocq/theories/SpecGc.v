(** What the memory of the C BDD engine should look like, and what a node stands for,
    independently of the functions of CEngine.v. *)
From Verif Require Import SpecBdd BddApi BddHeapProofs CEngine.

Section SpecGc.
  Context {A : Type} (A_eq_dec : forall x y : A, {x = y} + {x <> y}).

  (** The tree a reference stands for. *)
  Inductive crep (f : nat -> option (cell A)) : ref -> bdd A -> Prop :=
  | crep_none : crep f None BNone
  | crep_term x a : f x = Some (CTerm a) -> crep f (Some x) (BTerm a)
  | crep_node x n z o hn bz bo : f x = Some (CNode n z o hn) -> crep f z bz -> crep f o bo ->
      crep f (Some x) (BNode n bz bo).

  (** Reached from [roots] along zero and one pointers. *)
  Inductive reached (f : nat -> option (cell A)) (roots : list ref) : nat -> Prop :=
  | reached_root x : In (Some x) roots -> reached f roots x
  | reached_zero x y c : reached f roots y -> f y = Some c -> cell_zero c = Some x -> reached f roots x
  | reached_one x y c : reached f roots y -> f y = Some c -> cell_one c = Some x -> reached f roots x.

  (** How often a pointer to [x] occurs in a list. *)
  Definition occ (x : nat) (l : list ref) : Z := Z.of_nat (count_occ ref_eq_dec l (Some x)).
  (** All child pointers of the nodes at the given addresses. *)
  Definition kids (f : nat -> option (cell A)) (l : list nat) : list ref :=
    flat_map (fun y => match f y with Some c => [cell_zero c; cell_one c] | None => [] end) l.
  Definition below (f : nat -> option (cell A)) (n : Z) (r : ref) : Prop :=
    match r with None => True | Some j => exists c, f j = Some c /\ n < cell_num c end.
  Definition none_below (f : nat -> option (cell A)) (r : ref) : bool :=
    match r with None => true | Some j => match f j with Some c => cell_hn c | None => true end end.

  (** The memory is in order when the pointers in [held] are all that refer to nodes from
      outside: NODE_CACHE lists each object once and nothing else; children exist and test
      later bits; has_none is right; no two nodes are equal; and each reference count is two
      for NODE_CACHE plus one for every pointer. *)
  Record tidy (m : mst A) (held : list ref) : Prop := {
    t_nodup : NoDup (tbl m);
    t_live : forall x, In x (tbl m) <-> mem m x <> None;
    t_node : forall x n z o hn, mem m x = Some (CNode n z o hn) ->
      0 <= n < NB /\ z <> o /\ below (mem m) n z /\ below (mem m) n o /\ hn = (none_below (mem m) z || none_below (mem m) o);
    t_uniq : forall x y c d, mem m x = Some c -> mem m y = Some d -> cell_eqb A_eq_dec c d = true -> x = y;
    t_held : forall x, In (Some x) held -> mem m x <> None;
    t_cnt : forall x, mem m x <> None -> cnt m x = 2 + occ x (kids (mem m) (tbl m) ++ held) }.

  (** Everything outside NODE_CACHE that holds a node: the module's own references to
      IS_DIFFERING, the roots of the client's BDDs, keys and values of the operation caches,
      values of RULE_CACHE. *)
  Definition holders (own : list ref) (s : est A) : list ref :=
    own ++ flat_map (fun o => match o with Some r => [r] | None => [] end) (slots s)
        ++ flat_map (fun e : okey * ref => let '((_, a, b), r) := e in [a; b; r]) (oc s)
        ++ map snd (rc s).

  (** *** Programs: what a client's commands ask for *)
  (** The expression each BDD stands for, in order of creation. *)
  Definition xexpr (es : list (bexpr A)) (c : ccmd A) : list (bexpr A) :=
    match c with
    | XEmpty => es ++ [EEmpty]
    | XWc wc act => es ++ [EWc wc act]
    | XOp op i j => es ++ [eop op (nth i es EEmpty) (nth j es EEmpty)]
    | _ => es
    end.
  Definition xexprs (es : list (bexpr A)) (cs : list (ccmd A)) : list (bexpr A) := fold_left xexpr cs es.
  (** Which BDDs the client still holds. *)
  Definition holds (ls : list bool) (i : nat) : Prop := nth_error ls i = Some true.
  Definition xlive (ls : list bool) (c : ccmd A) : list bool :=
    match c with
    | XEmpty | XWc _ _ | XOp _ _ _ => ls ++ [true]
    | XDrop i => firstn i ls ++ false :: skipn (S i) ls
    | _ => ls
    end.
  Definition xok (ls : list bool) (c : ccmd A) : Prop :=
    match c with
    | XWc wc _ => wc = 0 \/ wc_ok wc
    | XOp _ i j => holds ls i /\ holds ls j
    | XDrop i => holds ls i
    | _ => True
    end.
  Fixpoint xoks (ls : list bool) (cs : list (ccmd A)) : Prop :=
    match cs with [] => True | c :: t => xok ls c /\ xoks (xlive ls c) t end.
End SpecGc.
