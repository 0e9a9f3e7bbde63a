(** The headerspace normaliser. Models ofequivalence/normaliseheaderspace.py:34-330.

    Sets are lists without duplicates; [ords] and [ordf] give the order in which a set of excludes
    and the set of fields are iterated. Dicts keep the order of insertion. *)
From Verif Require Export Normalise.
Local Open Scope list_scope.
Local Open Scope Z_scope.

Definition zin (x : Z) (l : list Z) : bool := existsb (Z.eqb x) l.
Definition zadd (l : list Z) (x : Z) : list Z := if zin x l then l else l ++ [x].
Definition zset (l : list Z) : list Z := fold_left zadd l [].
Definition zminus (a b : list Z) : list Z := filter (fun x => negb (zin x b)) a.
Definition zseteq (a b : list Z) : bool := forallb (fun x => zin x b) a && forallb (fun x => zin x a) b.

(** 34-37 *)
Record shim := mkShim { szero : bool; sinc : option Z; sexc : list Z }.
(** 43-44: BooleanShim() *)
Definition shim_zero : shim := mkShim true None [].

Section Shim.
  Context (ords : list Z -> list Z).
  (** 80-88: the excludes that [wc] covers; None if one of them covers [wc] *)
  Fixpoint scan (wc : Z) (rem : list Z) (l : list Z) : result (option (list Z)) :=
    match l with
    | [] => Ok (Some rem)
    | existing :: l =>
      if wildcard_is_subset existing wc then scan wc (rem ++ [existing]) l
      else if wildcard_is_subset wc existing then match rem with [] => Ok None | _ => Err AssertionError end
      else scan wc rem l
    end.
  (** 53-124 add. wildcard_intersect returns a number, which never prints as "empty": the branch
      94-122 is dead. *)
  Definition shim_add (s : shim) (wc : Z) (include : bool) : result shim :=
    if szero s then Ok s else
    if include then
      match sinc s with
      | None => Ok (mkShim (wc =? 0) (Some wc) (sexc s))
      | Some i =>
        let i := wildcard_intersect i wc in
        Ok (mkShim ((i =? 0) || existsb (fun x => wildcard_is_subset i x) (sexc s)) (Some i) (sexc s))
      end
    else
      match sinc s with
      | None => Err TypeError
      | Some i =>
        if wildcard_is_subset i wc then Ok (mkShim true (Some i) (sexc s)) else
        do r <- scan wc [] (ords (sexc s));
        match r with
        | None => Ok s
        | Some rem => Ok (mkShim false (Some i) (zadd (zminus (sexc s) rem) wc))
        end
      end.
  (** 39-42: BooleanShim(wc) *)
  Definition shim_of (wc : Z) : result shim := shim_add (mkShim false None []) wc true.
End Shim.
(** 126-133 __eq__; 162-165 __hash__ agrees with it *)
Definition shim_eqb (a b : shim) : bool :=
  if szero a || szero b then szero a && szero b
  else opt_eqb Z.eqb (sinc a) (sinc b) && zseteq (sexc a) (sexc b).

(** dicts with shims as keys *)
Section Dict.
  Context {V : Type}.
  Definition sdict := list (shim * V).
  Fixpoint sget (d : sdict) (k : shim) : option V :=
    match d with [] => None | (k', v) :: t => if shim_eqb k' k then Some v else sget t k end.
  Fixpoint sset (d : sdict) (k : shim) (v : V) : sdict :=
    match d with [] => [(k, v)] | (k', v') :: t => if shim_eqb k' k then (k', v) :: t else (k', v') :: sset t k v end.
  (** if k not in d: d[k] = v *)
  Definition sput (d : sdict) (k : shim) (v : V) : sdict := match sget d k with None => d ++ [(k, v)] | Some _ => d end.
  Definition supdate (d e : sdict) : sdict := fold_left (fun d kv => sset d (fst kv) (snd kv)) e d.
  (** del d[k] *)
  Fixpoint sdel (d : sdict) (k : shim) : result sdict :=
    match d with [] => Err KeyError | (k', v) :: t => if shim_eqb k' k then Ok t else do t' <- sdel t k; Ok ((k', v) :: t') end.
End Dict.
Arguments sdict V : clear implicits.

Section Norm.
  Context (ords : list Z -> list Z) (ordf : list Z -> list Z).
  (** 253-263: one rule (or cell) against one more field *)
  Definition split_cells {V} (v : V) (g : sdict V) (a : Z) : result (sdict V) :=
    rfold (fun next z =>
      do neg <- shim_add ords (fst z) a false;
      do pos <- shim_add ords (fst z) a true;
      Ok (sput (sput next pos v) neg v)) g [].
  (** 246-267 merge_rules *)
  Definition merge_rules {V} (rules_in : sdict V) (add_fields : list Z) : result (sdict V) :=
    rfold (fun resulting r =>
      do g <- rfold (split_cells (snd r)) (ordf add_fields) [r];
      Ok (supdate g resulting)) rules_in [].
  (** 179-187 rules_to_shim_map *)
  Definition shim_map {V} (rules : list (Z * V)) : result (sdict V) :=
    rfold (fun ret r => do b <- shim_of ords (fst r); Ok (sput ret b (snd r))) rules [].
  (** 190-243 normalise *)
  Definition hs_normalise (rules : list rule) : result (sdict po_value * list Z) :=
    do l <- rall (map (fun x => do wc <- rule_wc x; do a <- rule_actions x; Ok (wc, a)) rules);
    let add_fields := zset (map fst l) in
    do m <- shim_map l;
    do w <- merge_rules m add_fields;
    Ok (w, add_fields).
  (** dict equality *)
  Definition po_eq_dec : forall a b : po_value, {a = b} + {a <> b}.
  Proof.
    apply list_eq_dec. intros [a l] [b m]. destruct (Z.eq_dec a b); [|right; congruence]. destruct (list_eq_dec act_eq_dec l m); [left|right]; congruence.
  Defined.
  Definition sdict_eqb (a b : sdict po_value) : bool :=
    Nat.eqb (List.length a) (List.length b) &&
    forallb (fun kv => match sget b (fst kv) with Some v => if po_eq_dec (snd kv) v then true else false | None => false end) a.
  (** 270-330 check_equal without debug_ and diff *)
  Definition hs_check_equal (norm1 norm2 : sdict po_value * list Z) : result bool :=
    do w1 <- merge_rules (fst norm1) (zminus (snd norm2) (snd norm1));
    do w2 <- merge_rules (fst norm2) (zminus (snd norm1) (snd norm2));
    do w1 <- sdel w1 shim_zero;
    do w2 <- sdel w2 shim_zero;
    Ok (sdict_eqb w1 w2).
End Norm.
