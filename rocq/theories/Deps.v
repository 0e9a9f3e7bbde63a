(** Rule dependencies. Models ofequivalence/ruleset_deps_direct.py, ruleset_deps_indirect.py and
    utils.py:67-89 (AttachBDD), over the CUDD backend.

    A Rule object is a [node]: its identity, the rule, and the as_BDD attribute. Identities
    are positions in the ruleset: this is how dict keys compare inside a UniqueRules block.
    Outside of one Rule.__eq__ decides; the keys of two equal rules then coincide and carry
    the same value, so only duplicate entries are lost. *)
From Verif Require Export Merge Bdd.
Local Open Scope string_scope.
Local Open Scope list_scope.
Local Open Scope Z_scope.

Record node := mkNode { nid : nat; nrule : rule; nbdd : add }.
Notation nprio x := (priority (rcore (nrule x))).
Notation ntable x := (table (rcore (nrule x))).
Notation nmatch x := (rmatch (rcore (nrule x))).
Notation ninst x := (inst (rcore (nrule x))).

(** cuddbdd.py: BDD.intersection, BDD.subtract, BDD.__add__ *)
Notation binter := (addApply addIntersection).
Notation bsub := (addApply addSubtract).
Notation bmeld := (addApply addMeld).

(** sorted(l, key=...): the stable sort by increasing key, as insertion *)
Fixpoint insert_by {A} (le : A -> A -> bool) (x : A) (l : list A) : list A :=
  match l with [] => [x] | y :: t => if le x y then x :: l else y :: insert_by le x t end.
Definition sort_by {A} (le : A -> A -> bool) (l : list A) : list A := fold_right (insert_by le) [] l.
(** key=lambda x: -x.priority *)
Definition prio_ge (x y : node) : bool := nprio y <=? nprio x.

(** dicts keyed by edges (child, parent) *)
Definition edge := (nat * nat)%type.
Definition edge_eqb (a b : edge) : bool := Nat.eqb (fst a) (fst b) && Nat.eqb (snd a) (snd b).
Fixpoint eget {V} (d : list (edge * V)) (k : edge) : option V :=
  match d with [] => None | (k', v) :: t => if edge_eqb k' k then Some v else eget t k end.
Fixpoint eset {V} (d : list (edge * V)) (k : edge) (v : V) : list (edge * V) :=
  match d with
  | [] => [(k, v)]
  | (k', v') :: t => if edge_eqb k' k then (k', v) :: t else (k', v') :: eset t k v
  end.
Fixpoint edel {V} (d : list (edge * V)) (k : edge) : list (edge * V) :=
  match d with [] => [] | (k', v') :: t => if edge_eqb k' k then t else (k', v') :: edel t k end.
(** a set of edges, in the order in which they were added *)
Definition eadd (s : list edge) (k : edge) : list edge := if existsb (fun x => edge_eqb x k) s then s else s ++ [k].

(** parent_to_edge: a defaultdict of sets of children, each in insertion order *)
Definition ptable := list (nat * list nat).
Fixpoint pget (d : ptable) (k : nat) : list nat :=
  match d with [] => [] | (k', s) :: t => if Nat.eqb k' k then s else pget t k end.
Fixpoint pput (d : ptable) (k : nat) (s : list nat) : ptable :=
  match d with
  | [] => [(k, s)]
  | (k', s') :: t => if Nat.eqb k' k then (k', s) :: t else (k', s') :: pput t k s
  end.
Definition set_add (s : list nat) (x : nat) : list nat := if existsb (Nat.eqb x) s then s else s ++ [x].
Definition padd (d : ptable) (parent child : nat) : ptable := pput d parent (set_add (pget d parent) child).
(** set.remove *)
Definition prem (d : ptable) (parent child : nat) : result ptable :=
  if existsb (Nat.eqb child) (pget d parent)
  then Ok (pput d parent (filter (fun x => negb (Nat.eqb child x)) (pget d parent))) else Err KeyError.

Section Deps.
  (** [SHIFT]: bits of a digit of a Python int; [one]: the terminal number of the action "1";
      [ord]: the order in which a set of rules is iterated. *)
  Context (SHIFT one : Z) (ord : list nat -> list nat).

  (** utils.py:81-84. wc_to_BDD(wc, "1", "1"); a wildcard is never 0 here. *)
  Definition wc_one (wc : Z) : add := if wc =? 0 then BK else cudd_wc_to_BDD SHIFT wc one.
  Definition attach_one (x : nat * rule) : result node :=
    do wc <- rule_wc (snd x); Ok (mkNode (fst x) (snd x) (wc_one wc)).
  (** AttachBDD.__enter__ of a ruleset that has no BDDs yet, or has had them attached by an
      enclosing block (which computes the same ones). An empty ruleset is an IndexError. *)
  Fixpoint attach_all (l : list (nat * rule)) : result (list node) :=
    match l with [] => Ok [] | x :: t => do n <- attach_one x; do ns <- attach_all t; Ok (n :: ns) end.
  Definition attach (l : list (nat * rule)) : result (list node) :=
    match l with [] => Err IndexError | _ => attach_all l end.
  (** the objects of a list of rules *)
  Definition objects (rs : list rule) : list (nat * rule) := combine (seq 0 (List.length rs)) rs.
  (** with use_bdd=False nothing is attached *)
  Definition bare (l : list (nat * rule)) : list node := map (fun x => mkNode (fst x) (snd x) BK) l.

  (** [P and R.table == next(iter(P)).table] *)
  Definition same_table (R : node) (P : list node) : bool :=
    match P with [] => false | x :: _ => ntable R =? ntable x end.
  (** R.get_goto_egress().get_wildcard() *)
  Definition egress_wc (R : node) : st Z :=
    sdo g <- get_goto_egress (nmatch R) (ninst R) None; slift (match_wc g).

  (** ** ruleset_deps_direct.py *)
  (** 64-77 add_parents_bdd, with parent_to_edge *)
  Definition start_bdd (R : node) (P : list node) : st add :=
    if same_table R P then sret (nbdd R) else sdo wc <- egress_wc R; sret (wc_one wc).
  Fixpoint parents_bdd (packets : add) (P : list node) : list (nat * add) :=
    match P with
    | [] => []
    | Rj :: t =>
      let i := binter packets (nbdd Rj) in
      if cudd_bool i then
        (nid Rj, i) :: (let packets' := bsub packets (nbdd Rj) in if cudd_bool packets' then parents_bdd packets' t else [])
      else parents_bdd packets t
    end.
  Definition record_bdd (R : nat) (s : list (edge * add) * ptable) (x : nat * add) : list (edge * add) * ptable :=
    (eset (fst s) (R, fst x) (snd x), padd (snd s) (fst x) R).
  Definition add_parents_bdd (R : node) (P : list node) (s : list (edge * add) * ptable) : st (list (edge * add) * ptable) :=
    sdo packets <- start_bdd R P;
    sret (fold_left (record_bdd (nid R)) (parents_bdd packets (sort_by prio_ge P)) s).

  (** 39-61 add_parents_hs; the wildcards of the parents are computed in the loop *)
  Definition start_hs (R : node) (P : list node) : st headerspace :=
    sdo wc <- (if same_table R P then slift (match_wc (nmatch R)) else egress_wc R);
    sret (add_hs hs_empty wc).
  Fixpoint parents_hs (packets : headerspace) (P : list node) : result (list (nat * headerspace)) :=
    match P with
    | [] => Ok []
    | Rj :: t =>
      do wc <- match_wc (nmatch Rj);
      let i := hs_clean_up (hs_intersect packets (add_hs hs_empty wc)) in
      if hs_is_empty i then parents_hs packets t
      else do l <- parents_hs (hs_diff packets wc) t; Ok ((nid Rj, i) :: l)
    end.
  Definition add_parents_hs (R : node) (P : list node) (s : list (edge * headerspace)) : st (list (edge * headerspace)) :=
    sdo packets <- start_hs R P;
    sdo l <- slift (parents_hs packets (sort_by prio_ge P));
    sret (fold_left (fun s x => eset s (nid R, fst x) (snd x)) l s).

  (** 93-94 *)
  Definition potential_parents (ns : list node) (R : node) : list node :=
    filter (fun Rj => (nprio Rj <? nprio R) || (ntable R <? ntable Rj)) ns.
  (** 79-100 build_table_deps, over the rules of the table as objects. *)
  Definition table_deps_bdd (objs : list (nat * rule)) : st (list (edge * add)) :=
    sdo ns <- slift (attach objs);
    sdo s <- sfold (fun s R => add_parents_bdd R (potential_parents ns R) s) ns ([], []);
    sret (fst s).
  Definition table_deps_hs (objs : list (nat * rule)) : st (list (edge * headerspace)) :=
    let ns := bare objs in
    sfold (fun s R => add_parents_hs R (potential_parents ns R) s) ns [].
  Definition build_table_deps (rs : list rule) := table_deps_bdd (objects rs).
  Definition build_table_deps_hs (rs : list rule) := table_deps_hs (objects rs).

  (** 103-141 build_prefix_table_deps. The key of line 118 (KeyError without IPV4_DST): *)
  Definition prefix_key (x : nat * rule) : result (Z * Z) :=
    match mget (rmatch (rcore (snd x))) "IPV4_DST" with
    | Some (v, _, _) => Ok (v, priority (rcore (snd x)))
    | None => Err KeyError
    end.
  Definition key_le2 (a b : (Z * Z) * (nat * rule)) : bool :=
    (fst (fst a) <? fst (fst b)) || ((fst (fst a) =? fst (fst b)) && (snd (fst a) <=? snd (fst b))).
  Fixpoint keyed (l : list (nat * rule)) : result (list ((Z * Z) * (nat * rule))) :=
    match l with [] => Ok [] | x :: t => do k <- prefix_key x; do ks <- keyed t; Ok ((k, x) :: ks) end.
  Definition prefix_sort (l : list (nat * rule)) : result (list (nat * rule)) :=
    do ks <- keyed l; Ok (map snd (sort_by key_le2 ks)).
  (** 120-124: the assertions on the first rule *)
  Definition prefix_head (l : list (nat * rule)) : result (nat * rule) :=
    match l with
    | [] => Err IndexError
    | d :: _ =>
      if negb (priority (rcore (snd d)) =? 0) then Err AssertionError else
      do w <- rule_wc (snd d); do w0 <- match_wc match_new;
      if w =? w0 then Ok d else Err AssertionError
    end.
  (** 131-132, 135-137: pop until the top of the chain (head of the list) overlaps; an empty
      chain is an IndexError *)
  Fixpoint pop_chain {A} (overlap : A -> result bool) (chain : list A) : result (list A) :=
    match chain with
    | [] => Err IndexError
    | c :: t => do b <- overlap c; if b then Ok chain else pop_chain overlap t
    end.
  Definition top {A} (chain : list A) : result A := match chain with [] => Err IndexError | c :: _ => Ok c end.
  (** 127-139 with BDDs, and with wildcards *)
  Fixpoint prefix_bdd (chain : list node) (l : list node) (reaches : list (edge * add)) : result (list (edge * add)) :=
    match l with
    | [] => Ok reaches
    | x :: t =>
      do chain <- pop_chain (fun c => Ok (cudd_bool (binter (nbdd c) (nbdd x)))) chain;
      do c <- top chain;
      prefix_bdd (x :: chain) t (eset reaches (nid x, nid c) (nbdd x))
    end.
  Definition wc_overlap (x c : nat * rule) : result bool :=
    do wc <- rule_wc (snd c); do wx <- rule_wc (snd x); Ok (negb (wildcard_intersect wc wx =? 0)).
  Fixpoint prefix_wc (chain l : list (nat * rule)) (reaches : list (edge * Z)) : result (list (edge * Z)) :=
    match l with
    | [] => Ok reaches
    | x :: t =>
      do chain <- pop_chain (wc_overlap x) chain;
      do c <- top chain;
      do w <- rule_wc (snd x);
      prefix_wc (x :: chain) t (eset reaches (fst x, fst c) w)
    end.
  Definition build_prefix_table_deps (rs : list rule) : result (list (edge * add)) :=
    do l <- prefix_sort (objects rs);
    do _ <- prefix_head l;
    do ns <- attach l;
    match ns with [] => Err IndexError | d :: t => prefix_bdd [d] t [] end.
  Definition build_prefix_table_deps_wc (rs : list rule) : result (list (edge * Z)) :=
    do l <- prefix_sort (objects rs);
    do d <- prefix_head l;
    prefix_wc [d] (tl l) [].

  (** ** The incremental construction *)
  Definition node_of (ns : list node) (i : nat) : result node :=
    match find (fun x => Nat.eqb (nid x) i) ns with Some x => Ok x | None => Err KeyError end.
  (** aff_edges: a defaultdict of lists of edges, by child *)
  Fixpoint aff_add (aff : list (nat * list edge)) (child : nat) (e : edge) : list (nat * list edge) :=
    match aff with
    | [] => [(child, [e])]
    | (c, es) :: t => if Nat.eqb c child then (c, es ++ [e]) :: t else (c, es) :: aff_add t child e
    end.
  (** 144-161 _find_affected_edges. The recursion visits a rule at most once; [fuel] bounds its
      depth (RecursionError when it runs out; Python's limit of 1000 frames is not modelled). *)
  Fixpoint find_affected (fuel : nat) (ns : list node) (reaches : list (edge * add)) (pte : ptable) (new : node)
    (rule : nat) (s : list (nat * list edge) * list nat) : result (list (nat * list edge) * list nat) :=
    match fuel with
    | O => Err RecursionError
    | S fuel =>
      rfold (fun s c =>
        do child <- node_of ns c;
        if nprio new <? nprio child then
          match eget reaches (c, rule) with
          | None => Err KeyError
          | Some b => if cudd_bool (binter b (nbdd new)) then Ok (aff_add (fst s) c (c, rule), snd s) else Ok s
          end
        else if nprio child <? nprio new then
          if negb (existsb (Nat.eqb c) (snd s)) && cudd_bool (binter (nbdd child) (nbdd new))
          then find_affected fuel ns reaches pte new c (fst s, snd s ++ [c])
          else Ok s
        else Ok s) (ord (pget pte rule)) s
    end.
  (** 164-186 _process_affected_edges *)
  Definition process_edge (new : node) (s : add * list (edge * add) * ptable) (e : edge) : result (add * list (edge * add) * ptable) :=
    let '(packets, reaches, pte) := s in
    match eget reaches e with
    | None => Err KeyError
    | Some b =>
      let diff := bsub b (nbdd new) in
      if cudd_bool diff then Ok (bmeld packets (binter b (nbdd new)), eset reaches e diff, pte)
      else do pte <- prem pte (snd e) (fst e); Ok (bmeld packets b, edel reaches e, pte)
    end.
  Definition process_child (new : node) (s : list (edge * add) * ptable) (ce : nat * list edge) : result (list (edge * add) * ptable) :=
    do (packets, reaches, pte) <- rfold (process_edge new) (snd ce) (BK, fst s, snd s);
    Ok (eset reaches (fst ce, nid new) packets, padd pte (nid new) (fst ce)).
  (** 189-200 dep_dag_insert. The set of potential parents is sorted by priority; [ord] is
      the order in which the sort meets its elements. *)
  Definition nodes_of (ns : list node) (l : list nat) : result (list node) :=
    rfold (fun acc i => do x <- node_of ns i; Ok (acc ++ [x])) l [].
  Definition dep_dag_insert (ns : list node) (default : nat) (new : node) (s : list (edge * add) * ptable) :
    st (list (edge * add) * ptable) :=
    sdo (aff, pp) <- slift (find_affected (S (List.length ns)) ns (fst s) (snd s) new default ([], [default]));
    sdo s <- slift (rfold (process_child new) aff s);
    sdo P <- slift (nodes_of ns (ord pp));
    add_parents_bdd new P s.
  (** 203-240 build_table_deps_incremental *)
  Definition prio_le_obj (x y : nat * rule) : bool := priority (rcore (snd x)) <=? priority (rcore (snd y)).
  Fixpoint split_default (l : list (nat * rule)) (d : option nat) (rest : list nat) : result (option nat * list nat) :=
    match l with
    | [] => Ok (d, rest)
    | x :: t =>
      do w <- rule_wc (snd x); do w0 <- match_wc match_new;
      if w =? w0 then split_default t (Some (fst x)) rest else split_default t d (rest ++ [fst x])
    end.
  Definition table_deps_incremental (objs : list (nat * rule)) : st (list (edge * add)) :=
    let l := sort_by prio_le_obj objs in
    sdo (d, rest) <- slift (split_default l None []);
    match d with
    | None => slift (Err (match l with [] => IndexError | _ => ValueError end))
    | Some d =>
      sdo ns <- slift (attach l);
      sdo s <- sfold (fun s i => sdo new <- slift (node_of ns i); dep_dag_insert ns d new s) rest ([], []);
      sret (fst s)
    end.
  Definition build_table_deps_incremental (rs : list rule) := table_deps_incremental (objects rs).

  (** 243-285 build_ruleset_deps with use_bdd=True; [build] is the in-table builder. Lines
      266-269 fill a local that is never read. *)
  Definition with_table (t : Z) (objs : list (nat * rule)) : list (nat * rule) :=
    filter (fun x => table (rcore (snd x)) =? t) objs.
  Definition tables_of (objs : list (nat * rule)) : list Z :=
    sort_by Z.leb (nodup Z.eq_dec (map (fun x => table (rcore (snd x))) objs)).
  Definition goto_deps (ns : list node) (s : list (edge * add) * ptable) (R : node) : st (list (edge * add) * ptable) :=
    match goto_table (ninst R) with
    | None => sret s
    | Some t =>
      if ntable R <? t then add_parents_bdd R (filter (fun x => ntable x =? t) ns) s
      else slift (Err AssertionError)
    end.
  Definition build_ruleset_deps (build : list (nat * rule) -> st (list (edge * add))) (rs : list rule) : st (list edge) :=
    let objs := objects rs in
    sdo ns <- slift (attach objs);
    sdo reaches <- sfold (fun reaches t => sdo d <- build (with_table t objs);
                            sret (fold_left (fun r x => eset r (fst x) (snd x)) d reaches)) (tables_of objs) [];
    sdo s <- sfold (goto_deps ns) ns (reaches, []);
    sret (map fst (fst s)).

  (** ** ruleset_deps_indirect.py *)
  (** 37-44 add_parents_hs, 47-58 add_parents_bdd *)
  Definition ind_start_wc (R : node) (P : list node) : st Z :=
    if same_table R P then slift (match_wc (nmatch R)) else egress_wc R.
  Definition ind_parents_hs (R : node) (P : list node) (s : list edge) : st (list edge) :=
    sdo wc <- ind_start_wc R P;
    sfold (fun s Rj => sdo wj <- slift (match_wc (nmatch Rj));
      sret (if wildcard_intersect wc wj =? 0 then s else eadd s (nid R, nid Rj))) P s.
  Definition ind_parents_bdd (R : node) (P : list node) (s : list edge) : st (list edge) :=
    sdo packets <- start_bdd R P;
    sret (fold_left (fun s Rj => if cudd_bool (binter packets (nbdd Rj)) then eadd s (nid R, nid Rj) else s) P s).
  (** 61-82 build_table_deps *)
  Definition ind_table_deps (objs : list (nat * rule)) : st (list edge) :=
    let ns := bare objs in
    sfold (fun s R => ind_parents_hs R (potential_parents ns R) s) ns [].
  Definition ind_table_deps_bdd (objs : list (nat * rule)) : st (list edge) :=
    sdo ns <- slift (attach objs);
    sfold (fun s R => ind_parents_bdd R (potential_parents ns R) s) ns [].
  (** 85-118 build_prefix_table_deps (the pairs in the order of the list) *)
  Fixpoint prefix_all (chain l : list (nat * rule)) (reaches : list edge) : result (list edge) :=
    match l with
    | [] => Ok reaches
    | x :: t =>
      do chain <- pop_chain (wc_overlap x) chain;
      prefix_all (x :: chain) t (reaches ++ map (fun c => (fst x, fst c)) (rev chain))
    end.
  Definition ind_prefix_table_deps (rs : list rule) : result (list edge) :=
    do l <- prefix_sort (objects rs);
    do d <- prefix_head l;
    prefix_all [d] (tl l) [].
End Deps.
