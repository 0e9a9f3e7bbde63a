(** The drawing of a ruleset with --compress. Models build_graph
    (ofequivalence/graph_ruleset_deps.py:360-429) from the choice of the representatives on: the
    labelling loop, the numbers of the compressed groups, the layout, the filled nodes. [rules] is the
    ruleset after lines 350-358 (sorted, without table misses if asked for) and [deps] its
    dependencies. A rule is its position; no two rules are equal, since the graph and the groups
    are keyed by equality. The format of the label is taken to be a good one. The texts of the
    labels, colours and clusters (numbered as the groups are, but ignored by the layout) are left out. *)
From Coq Require Import QArith.
From Verif Require Import SpecBdd Deps Normalise Compress.
From Verif Require Export LayoutRules.
Local Open Scope list_scope.
Local Open Scope nat_scope.

(** 378-398: one rule; a rule which is not a node raises a KeyError, whose handler drops the rule
    from the representatives and the groups. State: reachables, min_ruleset, min_groups *)
Definition label_rule (nodes : list nat) (s : list nat * list nat * gdict) (i : nat) : result (list nat * list nat * gdict) :=
  let '(reach, mr, mg) := s in
  if nin i nodes then Ok (reach ++ [i], mr, mg)
  else do mr <- lremove i mr; do _g <- gget mg i; Ok (reach, mr, gdel mg i).
(** 480-485: the groups of number_groups as lists *)
Definition number_list (nodes : list nat) (id : Z) (l : list nat) (attr : nat -> option Z) : result (nat -> option Z) :=
  rfold (fun a x => if nin x nodes then Ok (fun y => if Nat.eqb y x then Some id else a y) else Err KeyError) l attr.
Fixpoint number_lists (nodes : list nat) (id : Z) (groups : list (list nat)) (attr : nat -> option Z) : result (nat -> option Z) :=
  match groups with
  | [] => Ok attr
  | l :: r => do a <- number_list nodes id l attr; number_lists nodes (id + 1)%Z r a
  end.
(** 415-417: --group compressed *)
Definition compressed_attr (rules : list rule) (nodes : list nat) (mg : gdict) : result (nat -> option Z) :=
  do gs <- rall (map (gget mg) (sort_ids rules (map fst mg)));
  number_lists nodes 1 gs (fun _ => None).

(** what is drawn: the labelled rules in order, the filled nodes, the groups, the positions *)
Record drawn := mkDrawn { d_labelled : list nat; d_filled : list nat; d_group : nat -> option Z; d_pos : list (nat * (Q * Q)) }.
(** 360-429; [group] None is "compressed" *)
Definition draw_compressed (ord : list nat -> list nat) (rules : list rule) (only_group : bool) (group : option grouping) (deps : list (nat * nat)) : result drawn :=
  do (mr, mg) <- (if only_group then do (d, _m) <- create_similar_groups rules deps; Ok ([], d) else compress_deps ord rules deps);
  let nodes := graph_nodes rules deps in
  do s <- rfold (label_rule nodes) (seq 0 (List.length rules)) ([], mr, mg);
  let '(reach, mr, mg) := s in
  do gid <- match group with None => compressed_attr rules nodes mg | Some g => Ok (graph_groups rules nodes g) end;
  do pos <- directed_layout deps (rule_key rules) gid 1 true true nodes;
  do filled <- rall (map (fun x => if nin x nodes then Ok x else Err KeyError) mr);
  Ok (mkDrawn reach filled gid pos).
