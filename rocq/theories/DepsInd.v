(** Model of the dependencies of a multi-table ruleset, direct and indirect
    (ruleset_deps_indirect.py:121-165). *)
From Verif Require Export Deps.
Local Open Scope string_scope.
Local Open Scope list_scope.
Local Open Scope Z_scope.

(** try: c / except Exception. Every [exn] is a Python Exception. *)
Definition s_try {A} (c : st A) : st (option A) :=
  fun r => match c r with (r', Ok a) => (r', Ok (Some a)) | (r', Err _) => (r', Ok None) end.
(** the keys of the defaultdict of tables, in order of insertion (152-154) *)
Definition table_keys (objs : list (nat * rule)) : list Z :=
  fold_left (fun acc x => let t := table (rcore (snd x)) in if existsb (Z.eqb t) acc then acc else acc ++ [t]) objs [].
(** 133-134 *)
Definition add_all (parents : list nat) (child : nat) (edges : list edge) : list edge :=
  fold_left (fun e p => eadd e (p, child)) parents edges.
(** 125-126: the match of the packets against a rule *)
Definition overlaps_ingress (m : option Match) (R : core) : st bool :=
  match m with
  | None => sret true
  | Some g => sdo wg <- slift (match_wc g); sdo wr <- slift (match_wc (rmatch R)); sret (negb (wildcard_intersect wg wr =? 0))
  end.
(** 121-137 _recurse_goto_deps. The state is the set of edges and whether [tables[table]] has
    been evaluated for a table without rules, which adds a key to the defaultdict. [fuel] bounds
    the depth; every step goes to a later table that has rules. *)
Fixpoint recurse_goto (fuel : nat) (objs : list (nat * rule)) (tbl : Z) (m : option Match) (parents : list nat)
  (s : list edge * bool) : st (list edge * bool) :=
  match fuel with
  | O => slift (Err OutOfFuel)
  | S fuel =>
    let rows := with_table tbl objs in
    sfold (fun s x =>
      let R := rcore (snd x) in
      match goto_table (inst R) with
      | None =>
        sdo b <- overlaps_ingress m R;
        sret (if b then (add_all parents (fst x) (fst s), snd s) else s)
      | Some t =>
        sdo g <- s_try (get_goto_egress (rmatch R) (inst R) m);
        match g with
        | None => sret s
        | Some egress =>
          let s := (add_all parents (fst x) (fst s), snd s) in
          if t =? 0 then sret s else
          if tbl <? t then recurse_goto fuel objs t (Some egress) (parents ++ [fst x]) s
          else slift (Err AssertionError)
        end
      end) rows (fst s, snd s || match rows with [] => true | _ => false end)
  end.
Section Ind.
  Context (SHIFT one : Z).
  (** 140-165 build_ruleset_deps. [use_bdd] false is the default None. The loop of line 156
      iterates the dict: a key added in an iteration is a RuntimeError in the next. *)
  Definition ind_goto_edges (objs : list (nat * rule)) : st (list edge) :=
    sfold (fun e t =>
      sdo (e, added) <- recurse_goto (S (S (List.length objs))) objs t None [] (e, false);
      if added : bool then slift (Err RuntimeError) else sret e) (table_keys objs) [].
  Definition ind_ruleset_deps (use_bdd : bool) (rs : list rule) : st (list edge) :=
    let objs := objects rs in
    sdo _ <- (if use_bdd then slift (attach SHIFT one objs) else sret []);
    sdo e <- ind_goto_edges objs;
    sfold (fun e t =>
      sdo d <- (if use_bdd then ind_table_deps_bdd SHIFT one (with_table t objs) else ind_table_deps (with_table t objs));
      sret (fold_left eadd d e)) (table_keys objs) e.
End Ind.
