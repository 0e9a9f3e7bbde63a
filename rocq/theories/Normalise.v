(** Normalisation to a canonical BDD and comparison of canonical forms.
    Models ofequivalence/normalisebdd.py over the CUDD backend (cuddbdd.py), the grouping loop
    of check_equivalence.py:164-192 and utils.py:67-89 (AttachBDD). The process-wide tables
    ACTION_MAPPING / TERM_TO_ACTION are the list [acts] (Bdd.action_id), threaded through every
    call. [SHIFT] is the number of bits of a digit of a Python int. *)
From Verif Require Export Rule Bdd.
Local Open Scope string_scope.
Local Open Scope list_scope.
Local Open Scope Z_scope.

(** Keys of ACTION_MAPPING: strings ("This is different", "1") and per-output actions. *)
Inductive tkey := FStr (s : string) | FAct (d : po_value).
Definition tkey_eq_dec : forall x y : tkey, {x = y} + {x <> y}.
Proof.
  decide equality; [apply string_dec|]. apply list_eq_dec. intros [a l] [b m].
  destruct (Z.eq_dec a b); [|right; congruence]. destruct (list_eq_dec act_eq_dec l m); [left|right]; congruence.
Defined.
(** cuddbdd.py:28-37 *)
Definition DIFFERENT : tkey := FStr "This is different".
Definition acts_init : list tkey := [DIFFERENT].

Section Norm.
  Context (SHIFT : Z).

  (** cuddbdd.py:50-71 wc_to_BDD *)
  Definition wc_BDD (acts : list tkey) (wc : Z) (f_action : tkey) : list tkey * add :=
    if wc =? 0 then (acts, BK)
    else let (acts', t) := action_id tkey_eq_dec acts f_action in (acts', cudd_wc_to_BDD SHIFT wc t).

  (** normalisebdd.py:35-104 normalise_set_fields. The set of set fields is iterated in an
      unknown order: [ord] gives it. (Match([...]) may also number an unknown field name; that
      is not observable here.) *)
  Definition pair_eq_dec : forall x y : string * Z, {x = y} + {x <> y}.
  Proof. decide equality; [apply Z.eq_dec|apply string_dec]. Defined.
  Definition set_pairs (pp : po_value) : list (string * Z) :=
    flat_map (fun out => flat_map (fun a : action => if String.eqb (fst a) "SET_FIELD" then
        match snd a with VSet f v => [(f, v)] | _ => [] end else []) (snd out)) pp.
  (** itertools.combinations *)
  Fixpoint combinations {X} (l : list X) (k : nat) : list (list X) :=
    match k, l with
    | O, _ => [[]]
    | S _, [] => []
    | S k', x :: t => map (cons x) (combinations t k') ++ combinations t k
    end.
  (** 71-76: the wildcard of a combination; 0 when two values of one field clash *)
  Definition comb_wc (comb : list (string * Z)) : result Z :=
    do full <- match_wc match_new;
    rfold (fun sf_wc fv => do wc <- flow_matches_to_wildcard [(fst fv, (snd fv, None))];
                           Ok (wildcard_intersect sf_wc wc)) comb full.
  Definition in_comb (comb : list (string * Z)) (v : aval) : bool :=
    match v with VSet f x => existsb (fun fv => String.eqb (fst fv) f && (snd fv =? x)) comb | _ => false end.
  Definition strip (comb : list (string * Z)) (pp : po_value) : po_value :=
    map (fun out => (fst out, filter (fun a : action => negb (in_comb comb (snd a))) (snd out))) pp.
  Fixpoint set_entries (wc : Z) (pp : po_value) (combs : list (list (string * Z))) : result (list (Z * po_value)) :=
    match combs with
    | [] => Ok []
    | c :: t => do sf <- comb_wc c;
                let overlap := wildcard_intersect wc sf in
                do r <- set_entries wc pp t;
                Ok (if overlap =? 0 then r else (overlap, strip c pp) :: r)
    end.
  Definition normalise_set_fields (ord : list (string * Z) -> list (string * Z)) (r : rule) : result (list (Z * po_value)) :=
    do pp <- rule_actions r;
    let fields := ord (nodup pair_eq_dec (set_pairs pp)) in
    let combs := flat_map (combinations fields) (rev (seq 1 (List.length fields))) in
    do wc <- rule_wc r;
    do res <- set_entries wc pp combs;
    Ok (res ++ [(wc, pp)]).

  (** The (wildcard, actions) pairs added for one rule: normalisebdd.py:124-132 and 163-171.
      [mr] is match_redundancy, with the iteration order. *)
  Definition rule_entries (mr : option (list (string * Z) -> list (string * Z))) (r : rule) : result (list (Z * po_value)) :=
    match mr with
    | Some ord => normalise_set_fields ord r
    | None => do pp <- rule_actions r; do wc <- rule_wc r; Ok [(wc, pp)]
    end.
  (** assert len({rule.table for rule in rules}) <= 1 *)
  Definition one_table (rules : list rule) : bool :=
    match rules with [] => true | r :: t => forallb (fun x => table (rcore x) =? table (rcore r)) t end.

  (** normalisebdd.py:145-172 normalise_naive *)
  Definition add_entry (st : list tkey * add) (e : Z * po_value) : list tkey * add :=
    let (acts, bdd) := st in
    let (acts', b) := wc_BDD acts (fst e) (FAct (snd e)) in (acts', addApply addMeld bdd b).
  Definition naive_rule mr (st : list tkey * add) (r : rule) : result (list tkey * add) :=
    do es <- rule_entries mr r; Ok (fold_left add_entry es st).
  Definition normalise_naive mr (acts : list tkey) (rules : list rule) : result (list tkey * add) :=
    if one_table rules then rfold (naive_rule mr) rules (acts, BK) else Err AssertionError.

  (** normalisebdd.py:107-142 normalise_divide_and_conquer *)
  Definition build_entry (st : list tkey * list add) (e : Z * po_value) : list tkey * list add :=
    let (acts, bdds) := st in
    let (acts', b) := wc_BDD acts (fst e) (FAct (snd e)) in (acts', bdds ++ [b]).
  Definition build_rule mr (st : list tkey * list add) (r : rule) : result (list tkey * list add) :=
    do es <- rule_entries mr r; Ok (fold_left build_entry es st).
  (** one round of the while loop: zip(bdds[::2], bdds[1::2]), the odd one out stays *)
  Fixpoint pair_up (bdds : list add) : list add :=
    match bdds with
    | a :: b :: t => addApply addMeld a b :: pair_up t
    | _ => bdds
    end.
  Fixpoint merge_all (fuel : nat) (bdds : list add) : result add :=
    match bdds with
    | [] => Err AssertionError
    | [b] => Ok b
    | _ => match fuel with O => Err OutOfFuel | S n => merge_all n (pair_up bdds) end
    end.
  Definition normalise_dc mr (acts : list tkey) (rules : list rule) : result (list tkey * add) :=
    if one_table rules then
      do st <- rfold (build_rule mr) rules (acts, []);
      do b <- merge_all (List.length (snd st)) (snd st);
      Ok (fst st, b)
    else Err AssertionError.

  (** normalisebdd.py:214-235 check_equal with check_match_redundancy=False: BDD == is identity
      of the root node *)
  Definition check_equal_exact (a b : add) : bool := if add_eq_dec a b then true else false.

  (** normalisebdd.py:238-273 _collect_paths *)
  Fixpoint collect (acts : list tkey) (remaining : add) (rules : list rule) (done : list (list core * add))
    : result (list tkey * list (list core * add)) :=
    let finish acts remaining done :=
      Ok (acts, if add_eq_dec remaining BK then done else done ++ [([], remaining)]) in
    match rules with
    | [] => finish acts remaining done
    | r :: t =>
      if negb (table (rcore r) =? 0) then Err AssertionError else
      do wc <- rule_wc r;
      let (acts', rb) := wc_BDD acts wc DIFFERENT in
      let inter := addApply addIntersection remaining rb in
      let '(remaining', done') :=
        if add_eq_dec inter BK then (remaining, done)
        else (addApply addDifference remaining inter, done ++ [(path r, inter)]) in
      if add_eq_dec remaining' BK then finish acts' remaining' done'
      else collect acts' remaining' t done'
    end.
  Definition collect_paths (acts : list tkey) (bdd : add) (rules : list rule) := collect acts bdd rules [].

  (** ruleset.py:34-48 sort_ruleset: a stable sort by (table, -priority) *)
  Definition sort_key (r : rule) : Z * Z := (table (rcore r), - priority (rcore r)).
  Definition key_leb (a b : Z * Z) : bool := (fst a <? fst b) || ((fst a =? fst b) && (snd a <=? snd b)).
  Fixpoint insert_rule (r : rule) (l : list rule) : list rule :=
    match l with
    | [] => [r]
    | x :: t => if key_leb (sort_key r) (sort_key x) then r :: l else x :: insert_rule r t
    end.
  Definition sort_ruleset (rules : list rule) : list rule := fold_right insert_rule [] rules.

  (** normalisebdd.py:276-308 find_conflicting_paths. The dict is an association list keyed by
      paths; the frozenset of new paths is the list of paths, duplicates and order ignored. *)
  Fixpoint path_eqb (a b : list core) : bool :=
    match a, b with
    | [], [] => true
    | x :: a', y :: b' => core_eqb x y && path_eqb a' b'
    | _, _ => false
    end.
  Fixpoint pd_set {V} (d : list (list core * V)) (k : list core) (v : V) : list (list core * V) :=
    match d with
    | [] => [(k, v)]
    | (k', v') :: t => if path_eqb k' k then (k', v) :: t else (k', v') :: pd_set t k v
    end.
  Fixpoint conflicts (acts : list tkey) (parts : list (list core * add)) (new_flows : list rule)
    (res : list (list core * list (list core))) : result (list tkey * list (list core * list (list core))) :=
    match parts with
    | [] => Ok (acts, res)
    | (orig_path, b) :: t =>
      do ps <- collect_paths acts b new_flows;
      conflicts (fst ps) t new_flows (pd_set res orig_path (map fst (snd ps)))
    end.
  Definition find_conflicting_paths (acts : list tkey) (diff : add) (orig_flows new_flows : list rule) (no_sort : bool) :=
    let orig_flows := if no_sort then orig_flows else sort_ruleset orig_flows in
    let new_flows := if no_sort then new_flows else sort_ruleset new_flows in
    do parts <- collect_paths acts diff orig_flows;
    conflicts (fst parts) (snd parts) new_flows [].
End Norm.

(** check_equivalence.py:164-184: grouping of the canonical forms. Each round compares the
    first ruleset with the rest and keeps those that differ. *)
Section Group.
  Context {N : Type}.                                         (* file names *)
  Fixpoint split_equal (c : add) (l : list (N * add)) : list (N * add) * list (N * add) :=
    match l with
    | [] => ([], [])
    | o :: t => let (eqs, rest) := split_equal c t in
                if check_equal_exact c (snd o) then (o :: eqs, rest) else (eqs, o :: rest)
    end.
  Fixpoint group_loop (fuel : nat) (l : list (N * add)) : result (list (list (N * add))) :=
    match l with
    | [] => Ok []
    | o :: t => match fuel with
                | O => Err OutOfFuel
                | S n => let (eqs, rest) := split_equal (snd o) t in
                         do g <- group_loop n rest; Ok ((o :: eqs) :: g)
                end
    end.
  Definition group_equal (l : list (N * add)) := group_loop (List.length l) l.
End Group.
