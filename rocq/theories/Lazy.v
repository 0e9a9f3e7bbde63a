(** The lazy treatment of set fields that the match makes no-ops. Models
    ofequivalence/normalisebdd.py:178-211 check_equal_match_redundancy and the path of check_equal
    (214-235) that calls it, with cuddbdd.py:74-101 BDD_to_wcs and BDD_to_matches. *)
From Verif Require Export Normalise.
Local Open Scope string_scope.
Local Open Scope list_scope.
Local Open Scope Z_scope.

(** dict(left): left is what TERM_TO_ACTION holds: None, a string, or a frozenset of (port,
    actions) pairs. dict of a string of several letters is a ValueError. *)
Definition as_dict (t : option tkey) : result po_value :=
  match t with
  | None => Err TypeError
  | Some (FStr _) => Err ValueError
  | Some (FAct d) => Ok d
  end.
(** 200-203: one SET_FIELD for every field that is matched without a mask *)
Definition matched_fields (m : Match) : result alist :=
  rfold (fun l (it : string * (Z * option Z * Z)) =>
           match snd it with
           | (v, None, _) => al_append l ("SET_FIELD", VSet (fst it) v)
           | _ => Ok l
           end) (m_items m) al_empty.
Definition po_eq_dec : forall x y : po_value, {x = y} + {x <> y}.
Proof.
  apply list_eq_dec. intros [a l] [b m]. destruct (Z.eq_dec a b); [|right; congruence].
  destruct (list_eq_dec act_eq_dec l m); [left|right]; congruence.
Defined.
(** 207-210: one port *)
Definition same_on_port (sf : alist) (left right : po_value) (k : Z) : result bool :=
  match po_get left k, po_get right k with
  | Some l, Some r =>
    do newleft <- al_copy sf l [];
    do newright <- al_copy sf r [];
    do pl <- per_output_actions newleft;
    do pr <- per_output_actions newright;
    Ok (if po_eq_dec pl pr then true else false)
  | _, _ => Err KeyError
  end.
Fixpoint same_on_ports (sf : alist) (left right : po_value) (ks : list Z) : result bool :=
  match ks with
  | [] => Ok true
  | k :: t => do b <- same_on_port sf left right k;
              if (b : bool) then same_on_ports sf left right t else Ok false
  end.

Section Lazy.
  (** The order in which left.keys() is iterated. *)
  Context (kord : list Z -> list Z).
  (** 195-210: the body of the loop for one path; 205 [if not len(set_fields)]. The keys are kept
      sorted, so equal sets of keys are equal lists. *)
  Definition lazy_path (m : Match) (left right : po_value) : result bool :=
    if list_eq_dec Z.eq_dec (map fst left) (map fst right) then
      do sf <- matched_fields m;
      match orig_order sf with
      | [] => Ok false
      | _ => same_on_ports sf left right (kord (map fst left))
      end
    else Ok false.
  (** The generator of BDD_to_matches: the two lookups in TERM_TO_ACTION, then the match; the
      registry of OXM fields is threaded through. The first path that fails ends the loop. *)
  Fixpoint lazy_paths (r : registry) (acts : list tkey) (paths : list (Z * (Z * Z))) : result bool :=
    match paths with
    | [] => Ok true
    | (wc, (tl, tr)) :: rest =>
      do lt <- term_to_action acts tl;
      do rt <- term_to_action acts tr;
      do rm <- flow_wildcard_to_flowmatches r wc;
      do dl <- as_dict lt;
      do dr <- as_dict rt;
      do b <- lazy_path (snd rm) dl dr;
      if (b : bool) then lazy_paths (fst rm) acts rest else Ok false
    end.
  (** 189-211, the first component of the result *)
  Definition check_equal_lazy (r : registry) (acts : list tkey) (a b : add) : result bool :=
    lazy_paths r acts (cudd_to_wcs (addApply addDiffTagged a b)).
End Lazy.
