(** The Match class and the run-time field registry.
    Models ofequivalence/rule.py:1066-1231 and openflow_desc.py:79-101.
    [ttp_link] is always None and [binding] always () (Table Type Patterns are not
    modelled). *)
From Verif Require Export Wildcard.

(** ** Python dict with string keys: association list in insertion order, unique keys *)
Section Dict.
  Context {V : Type}.
  Definition dict := list (string * V).
  Definition dict_get (d : dict) (k : string) : option V := assoc k d.
  (** [d[k] = v]: an existing key keeps its position *)
  Fixpoint dict_set (d : dict) (k : string) (v : V) : dict :=
    match d with
    | [] => [(k, v)]
    | (k', v') :: t => if String.eqb k' k then (k', v) :: t else (k', v') :: dict_set t k v
    end.
  Fixpoint dict_del (d : dict) (k : string) : dict :=
    match d with
    | [] => []
    | (k', v') :: t => if String.eqb k' k then t else (k', v') :: dict_del t k
    end.
End Dict.
Arguments dict : clear implicits.

(** ** The field registry: rule.py's own OpenFlow1_3_5 object (rule.py:31).
    Name, id and number of bits (None for fields allocated at run time), in id order. *)
Definition registry := list (string * (Z * option Z)).
Definition registry_init : registry :=
  map (fun d => (fd_name d, (fd_id d, Some (fd_bits d)))) oxm_fields.

(** openflow_desc.py:79-101 oxm_name_to_id (the log output and difflib hint are omitted).
    [last_id] is the id of the last name in ordered_oxm_fields. *)
Definition oxm_name_to_id (r : registry) (name : string) : registry * Z :=
  match dict_get r name with
  | Some (i, _) => (r, i)
  | None =>
    let last_id := match rev r with [] => -1 | (_, (i, _)) :: _ => i end in
    (r ++ [(name, (last_id + 1, None))], last_id + 1)
  end.

(** ** Match *)
Record Match := MkMatch {
  m_items : dict (Z * option Z * Z);     (* name -> (value, mask, field_id) *)
  m_required : Z;                        (* required_mask *)
  m_cache : option Z                     (* _wildcard *)
}.

(** rule.py:1080-1099 Match() *)
Definition match_new : Match := MkMatch [] 0 None.

(** The (field, (value, mask)) view that flow_matches_to_wildcard reads. *)
Definition items_view (d : dict (Z * option Z * Z)) : list match_item :=
  map (fun kv => let '(k, (v, m, _)) := kv in (k, (v, m))) d.

(** rule.py:1147-1150 get_wildcard: fills the cache, returns the wildcard. *)
Definition match_get_wildcard (m : Match) : result (Match * Z) :=
  match m_cache m with
  | Some w => Ok (m, w)
  | None =>
    do w <- flow_matches_to_wildcard (items_view (m_items m));
    Ok (MkMatch (m_items m) (m_required m) (Some w), w)
  end.

(** rule.py:1159-1177 append: the normalised (value, mask). [if l and mask] is false for
    an unknown width, for mask None and for mask 0. *)
Definition append_norm (l : option Z) (value : Z) (mask : option Z) : Z * option Z :=
  match l, mask with
  | Some bits, Some mk =>
    if (bits =? 0) || (mk =? 0) then (value, mask) else
    let max_mask := 2 ^ bits - 1 in
    let mk := Z.land mk max_mask in
    (Z.land value mk, if mk =? max_mask then None else Some mk)
  | _, _ => (value, mask)
  end.
Definition match_append (r : registry) (m : Match) (name : string) (value : Z) (mask : option Z)
  : registry * Match :=
  let '(r', id) := oxm_name_to_id r name in
  let l := match dict_get r' name with Some (_, b) => b | None => None end in
  let '(v, mk) := append_norm l value mask in
  (r', MkMatch (dict_set (m_items m) name (v, mk, id))
               (Z.lor (m_required m) (Z.shiftl 1 id)) None).

(** rule.py:1196-1202 __delitem__. The cache is cleared before the KeyError is raised, so
    the state afterwards is returned together with the outcome. *)
Definition match_del (m : Match) (name : string) : Match * result unit :=
  match dict_get (m_items m) name with
  | None => (MkMatch (m_items m) (m_required m) None, Err KeyError)
  | Some (_, _, id) =>
    (MkMatch (dict_del (m_items m) name)
             (Z.land (m_required m) (Z.lnot (Z.shiftl 1 id))) None, Ok tt)
  end.

(** A list of appends, e.g. Match([(name, value, mask), ...]). *)
Fixpoint match_append_all (r : registry) (m : Match) (l : list match_item) : registry * Match :=
  match l with
  | [] => (r, m)
  | (name, (v, mk)) :: t =>
    let '(r', m') := match_append r m name v mk in match_append_all r' m' t
  end.

(** rule.py:1179-1194 copy(add, remove): deletes first, then appends. *)
Fixpoint match_del_all (m : Match) (l : list string) : result Match :=
  match l with
  | [] => Ok m
  | k :: t => match match_del m k with (m', Ok _) => match_del_all m' t | (_, Err e) => Err e end
  end.
Definition match_copy (r : registry) (m : Match) (add : list match_item) (remove : list string)
  : result (registry * Match) :=
  do m' <- match_del_all m remove;
  Ok (match_append_all r m' add).

(** headerspace.py:444-453 flow_wildcard_to_flowmatches *)
Definition flow_wildcard_to_flowmatches (r : registry) (wc : Z) : result (registry * Match) :=
  do fields <- flow_wildcard_to_fields wc;
  let '(r', m) := match_append_all r match_new fields in
  Ok (r', MkMatch (m_items m) (m_required m) (Some wc)).

(** rule.py:1100-1109 intersection, rule.py:1123-1141 union_cover (of the two wildcards;
    the callers have just computed them through get_wildcard). *)
Definition match_intersection (r : registry) (wa wb : Z) : result (registry * Match) :=
  flow_wildcard_to_flowmatches r (wildcard_intersect wa wb).
Definition match_union_cover (r : registry) (wa wb : Z) : result (registry * Match) :=
  flow_wildcard_to_flowmatches r (wildcard_union_cover wa wb).

(** rule.py:1152-1157 issubset / overlaps on the wildcards *)
Definition match_issubset (wa wb : Z) : bool := wildcard_is_subset wa wb.
Definition match_overlaps (wa wb : Z) : bool := negb (wildcard_intersect wa wb =? 0).

(** rule.py:1207-1215 __eq__: same required_mask and equal dicts (order irrelevant).
    Both dicts have unique keys. *)
Definition item_val_eqb (x y : Z * option Z * Z) : bool :=
  let '(v, m, i) := x in let '(v', m', i') := y in
  (v =? v') && (match m, m' with Some a, Some b => a =? b | None, None => true | _, _ => false end)
  && (i =? i').
Definition dict_eqb (d d' : dict (Z * option Z * Z)) : bool :=
  Nat.eqb (List.length d) (List.length d') &&
  forallb (fun kv => match dict_get d' (fst kv) with Some v => item_val_eqb (snd kv) v | None => false end) d.
Definition match_eqb (a b : Match) : bool :=
  (m_required a =? m_required b) && dict_eqb (m_items a) (m_items b).

(** ** A session: a registry and any number of Match objects, driven by API calls *)
Record session := MkSession { s_reg : registry; s_ms : list Match }.
Definition session_init : session := MkSession registry_init [].

Inductive mop :=
| ONew (items : list match_item)
| OAppend (i : nat) (name : string) (v : Z) (mask : option Z)
| ODel (i : nat) (name : string)
| OCopy (i : nat) (add : list match_item) (remove : list string)
| OWildcard (i : nat)
| OIntersect (i j : nat)
| OUnion (i j : nat).

Fixpoint set_nth {A} (n : nat) (x : A) (l : list A) {struct l} : list A :=
  match l, n with
  | [], _ => []
  | _ :: t, O => x :: t
  | y :: t, S n' => y :: set_nth n' x t
  end.

(** One API call. A call naming a missing object is ignored. Exceptions leave the objects
    as the Python code leaves them. *)
Definition wildcards_of (s : session) (i j : nat) : option (session * Z * Z) :=
  match nth_error (s_ms s) i with
  | None => None
  | Some a =>
    match match_get_wildcard a with
    | Err _ => None
    | Ok (a', wa) =>
      let ms := set_nth i a' (s_ms s) in
      match nth_error ms j with
      | None => None
      | Some b =>
        match match_get_wildcard b with
        | Err _ => None
        | Ok (b', wb) => Some (MkSession (s_reg s) (set_nth j b' ms), wa, wb)
        end
      end
    end
  end.
Definition add_result (s : session) (r : result (registry * Match)) : session :=
  match r with
  | Ok (reg, m) => MkSession reg (s_ms s ++ [m])
  | Err _ => s
  end.
Definition mstep (s : session) (o : mop) : session :=
  match o with
  | ONew items =>
    let '(r, m) := match_append_all (s_reg s) match_new items in MkSession r (s_ms s ++ [m])
  | OAppend i name v mask =>
    match nth_error (s_ms s) i with
    | None => s
    | Some m => let '(r, m') := match_append (s_reg s) m name v mask in
                MkSession r (set_nth i m' (s_ms s))
    end
  | ODel i name =>
    match nth_error (s_ms s) i with
    | None => s
    | Some m => MkSession (s_reg s) (set_nth i (fst (match_del m name)) (s_ms s))
    end
  | OCopy i add remove =>
    match nth_error (s_ms s) i with
    | None => s
    | Some m => add_result s (match_copy (s_reg s) m add remove)
    end
  | OWildcard i =>
    match nth_error (s_ms s) i with
    | None => s
    | Some m => match match_get_wildcard m with
                | Ok (m', _) => MkSession (s_reg s) (set_nth i m' (s_ms s))
                | Err _ => s
                end
    end
  | OIntersect i j =>
    match wildcards_of s i j with
    | None => s
    | Some (s', wa, wb) => add_result s' (match_intersection (s_reg s') wa wb)
    end
  | OUnion i j =>
    match wildcards_of s i j with
    | None => s
    | Some (s', wa, wb) => add_result s' (match_union_cover (s_reg s') wa wb)
    end
  end.
Definition mrun (ops : list mop) : session := fold_left mstep ops session_init.
