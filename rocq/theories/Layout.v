(** The layered drawing of a dependency graph. Models ofequivalence/graph_ruleset_deps.py,
    directed_layout. Nodes are numbers (the positions of the rules in the ruleset), a graph is the
    list of its nodes and edges in NetworkX order. *)
From Coq Require Import QArith.
From Verif Require Export Base.
Local Open Scope list_scope.
Local Open Scope nat_scope.

Definition nmem (x : nat) (l : list nat) : bool := existsb (Nat.eqb x) l.

Section Layout.
  (** [key]: the sort key of a node (ruleset.py:34-39 by default: the table and the negated
      priority, compared lexicographically); [gid]: the node attribute 'group', if it is set *)
  Context (edges : list (nat * nat)) (key : nat -> Z * Z) (gid : nat -> option Z).
  Definition key_leb (a b : nat) : bool :=
    (fst (key a) <? fst (key b))%Z || ((fst (key a) =? fst (key b))%Z && (snd (key a) <=? snd (key b))%Z).
  (** sorted(nodes, key=key): stable *)
  Fixpoint insert_node (x : nat) (l : list nat) : list nat :=
    match l with [] => [x] | y :: r => if key_leb x y then x :: l else y :: insert_node x r end.
  Definition sort_nodes (l : list nat) : list nat := fold_right insert_node [] l.
  (** 270, 287-288, 319: the sources of the edges into a node, the targets of those out of it *)
  Definition edges_in (x : nat) : list nat := map fst (filter (fun e => Nat.eqb (snd e) x) edges).
  Definition edges_out (x : nat) : list nat := map snd (filter (fun e => Nat.eqb (fst e) x) edges).
  (** 271-277: one more than the index of the last level that has a source, [k] the next index *)
  Fixpoint next_level (ins : list nat) (k : nat) (levels : list (list nat)) : nat :=
    match levels with
    | [] => 0
    | l :: r => Nat.max (if existsb (fun n => nmem n ins) l then S k else 0) (next_level ins (S k) r)
    end.
  (** 280: levels[n].append(x) *)
  Fixpoint add_at (n : nat) (x : nat) (levels : list (list nat)) : list (list nat) :=
    match levels, n with
    | [], _ => []
    | l :: r, O => (l ++ [x]) :: r
    | l :: r, S n => l :: add_at n x r
    end.
  (** 269-280: one node *)
  Definition place_node (levels : list (list nat)) (x : nat) : list (list nat) :=
    let n := next_level (edges_in x) 0 levels in
    add_at n x (if (List.length levels <=? n)%nat then levels ++ [[]] else levels).
  (** 287-297: the while loop over one level; the nodes kept and the level below *)
  Fixpoint push_level (l below : list nat) : list nat * list nat :=
    match l with
    | [] => ([], below)
    | x :: r =>
      if existsb (fun d => nmem d below) (edges_out x)
      then let '(k, b) := push_level r below in (x :: k, b)
      else push_level r (below ++ [x])
    end.
  (** 286-297: from the last but one level upwards *)
  Fixpoint push_levels (levels : list (list nat)) : list (list nat) :=
    match levels with
    | [] => []
    | l :: r => match push_levels r with
        | [] => [l]
        | below :: r' => let '(k, b) := push_level l below in k :: b :: r'
        end
    end.
  (** 265-299 _layout *)
  Definition layout_nodes (push_down : bool) (nodes : list nat) : list (list nat) :=
    let levels := fold_left place_node (sort_nodes nodes) [] in
    if push_down then push_levels levels else levels.

  (** 306: the groups, sorted; a set has no duplicates *)
  Fixpoint insert_group (g : Z) (l : list Z) : list Z :=
    match l with [] => [g] | h :: r => if (g <? h)%Z then g :: l else if (g =? h)%Z then l else h :: insert_group g r end.
  Definition all_groups (nodes : list nat) : result (list Z) :=
    fold_right (fun x acc => do l <- acc; match gid x with Some g => Ok (insert_group g l) | None => Err KeyError end) (Ok []) nodes.
  Definition in_group (g : Z) (x : nat) : bool := match gid x with Some h => Z.eqb h g | None => false end.
  (** 301-311; next(iter(graph.nodes())) of an empty graph raises *)
  Definition make_levels (push_down : bool) (nodes : list nat) : result (list (list nat)) :=
    match nodes with
    | [] => Err StopIteration
    | x :: _ =>
      match gid x with
      | Some _ => do gs <- all_groups nodes; Ok (flat_map (fun g => layout_nodes push_down (filter (in_group g) nodes)) gs)
      | None => Ok (layout_nodes push_down nodes)
      end
    end.

  (** list.index; only used for members *)
  Fixpoint index_in (x : nat) (l : list nat) : nat := match l with [] => 0 | y :: r => if Nat.eqb x y then 0 else S (index_in x r) end.
  (** 318-323 generate_sort_level *)
  Definition sort_level_key (next : list nat) (x : nat) : Z :=
    fold_left (fun m d => if nmem d next then Z.min m (Z.of_nat (index_in d next)) else m) (edges_out x) 99999999999999%Z.
  (** list.sort with a key: stable *)
  Fixpoint insert_by (k : nat -> Z) (x : nat) (l : list nat) : list nat :=
    match l with [] => [x] | y :: r => if (k x <=? k y)%Z then x :: l else y :: insert_by k x r end.
  Definition sort_on (k : nat -> Z) (l : list nat) : list nat := fold_right (insert_by k) [] l.
  (** 316-324: from the last pair of levels upwards *)
  Fixpoint cluster_levels (levels : list (list nat)) : list (list nat) :=
    match levels with
    | [] => []
    | l :: r => match cluster_levels r with
        | [] => [l]
        | next :: r' => sort_on (sort_level_key next) l :: next :: r'
        end
    end.

  (** 328-333; the floats are exact rationals here *)
  Fixpoint spread_level (scale : Q) (n_levels width l_index n_index : nat) (l : list nat) : list (nat * (Q * Q)) :=
    match l with
    | [] => []
    | x :: r =>
      (x, (((1 / inject_Z (Z.of_nat width)) * (inject_Z (Z.of_nat n_index) + (1 # 2)) * scale)%Q,
           ((1 - (1 / inject_Z (Z.of_nat n_levels)) * (inject_Z (Z.of_nat l_index) + (1 # 2))) * scale)%Q))
      :: spread_level scale n_levels width l_index (S n_index) r
    end.
  Fixpoint spread (scale : Q) (n_levels l_index : nat) (levels : list (list nat)) : list (nat * (Q * Q)) :=
    match levels with
    | [] => []
    | l :: r => spread_level scale n_levels (List.length l) l_index 0 l ++ spread scale n_levels (S l_index) r
    end.
  (** 245-335 directed_layout: the dict of positions, as the list of its entries (a node that
      occurred twice would keep its last entry; nodes are unique in NetworkX) *)
  Definition directed_layout (scale : Q) (push_down cluster : bool) (nodes : list nat) : result (list (nat * (Q * Q))) :=
    do levels <- make_levels push_down nodes;
    let levels := if cluster then cluster_levels levels else levels in
    Ok (spread scale (List.length levels) 0 levels).
End Layout.

(** 472-485 number_groups over itertools.groupby: consecutive nodes with equal [gkey] share a
    number, counting from 1; [prev] is the key of the node before *)
Definition group_number (n : Z) (prev : option (Z * Z)) (k : Z * Z) : Z :=
  match prev with
  | Some k' => if (fst k' =? fst k)%Z && (snd k' =? snd k)%Z then n else (n + 1)%Z
  | None => n
  end.
Fixpoint number_groups (gkey : nat -> Z * Z) (n : Z) (prev : option (Z * Z)) (l : list nat) : list (nat * Z) :=
  match l with
  | [] => []
  | x :: r => let n' := group_number n prev (gkey x) in (x, n') :: number_groups gkey n' (Some (gkey x)) r
  end.
(** graph.node[x]['group'] *)
Definition group_attr (l : list (nat * Z)) (x : nat) : option Z :=
  match find (fun e => Nat.eqb (fst e) x) l with Some e => Some (snd e) | None => None end.
(** the --group option: none, by table, by table and priority ("compressed" is in LayoutCompress.v) *)
Inductive grouping := GroupNone | GroupTable | GroupPriority.
