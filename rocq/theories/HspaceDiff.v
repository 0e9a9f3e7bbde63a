(** The report of differences of the headerspace normaliser. Models
    ofequivalence/normaliseheaderspace.py:167-176 (BooleanShim.matches, intersection), 270-330
    (check_equal with diff=True) and 333-383 (_collect_paths, find_conflicting_paths).
    A set of shims is a list without equal elements; the theorems allow any order. *)
From Verif Require Export Hspace.
Local Open Scope list_scope.
Local Open Scope Z_scope.

(** 167-171 matches; wildcard_intersect(None, ...) is a TypeError *)
Definition shim_matches (s : shim) (wc : Z) : result bool :=
  match sinc s with None => Err TypeError | Some i => Ok (i =? wildcard_intersect i wc) end.
(** 173-176 intersection: a copy with a smaller include, neither zero nor the excludes are updated *)
Definition shim_intersection (s : shim) (wc : Z) : result shim :=
  match sinc s with None => Err TypeError | Some i => Ok (mkShim (szero s) (Some (wildcard_intersect i wc)) (sexc s)) end.

Definition shas {V} (d : sdict V) (k : shim) : bool := match sget d k with Some _ => true | None => false end.
Section Diff.
  Context (ords ordf : list Z -> list Z).
  (** 270-330 check_equal with diff=True. The two asserts of 325-326 come before the comparison. *)
  Definition hs_check_diff (norm1 norm2 : sdict po_value * list Z) : result (bool * list shim) :=
    do w1 <- merge_rules ords ordf (fst norm1) (zminus (snd norm2) (snd norm1));
    do w2 <- merge_rules ords ordf (fst norm2) (zminus (snd norm1) (snd norm2));
    do w1 <- sdel w1 shim_zero;
    do w2 <- sdel w2 shim_zero;
    let new_only := filter (fun k => negb (shas w2 k)) (map fst w1) in
    let missing_only := filter (fun k => negb (shas w1 k)) (map fst w2) in
    let difference := filter (fun k => match sget w1 k, sget w2 k with Some a, Some b => if po_eq_dec a b then false else true | _, _ => false end)
                             (filter (shas w2) (map fst w1)) in
    match new_only, missing_only with
    | [], [] => Ok (sdict_eqb w1 w2, difference)
    | _, _ => Err AssertionError
    end.
End Diff.

(** 333-344 _collect_paths: every rule that contains the include, shadowed or not *)
Definition hs_collect (h : shim) (rules : list rule) : result (list (list core * shim)) :=
  rfold (fun collected r =>
    do wc <- rule_wc r;
    do m <- shim_matches h wc;
    if m : bool then do i <- shim_intersection h wc; Ok (collected ++ [(path r, i)]) else Ok collected) rules [].
(** 379-382: r[orig_path] |= new, or a new entry; frozensets are lists *)
Fixpoint pd_join (d : list (list core * list (list core))) (k : list core) (v : list (list core)) :=
  match d with
  | [] => [(k, v)]
  | (k', v') :: t => if path_eqb k' k then (k', v' ++ v) :: t else (k', v') :: pd_join t k v
  end.
(** 347-383 find_conflicting_paths *)
Definition hs_conflicts (diff : list shim) (orig_flows new_flows : list rule) : result (list (list core * list (list core))) :=
  let orig_flows := sort_ruleset orig_flows in
  let new_flows := sort_ruleset new_flows in
  rfold (fun r h =>
    do orig_paths <- hs_collect h orig_flows;
    rfold (fun r oh => do new_paths <- hs_collect (snd oh) new_flows; Ok (pd_join r (fst oh) (map fst new_paths))) orig_paths r) diff [].
