(** Actions, action lists, action sets and instructions.
    Models ofequivalence/rule.py:430-1005 and openflow_desc.py:289-399.
    [ttp_link] is always None and [binding] always () (Table Type Patterns are not modelled),
    so every lookup goes to G_OF. The memo fields _hash, _per_output_actions and
    _per_output_actions_pt are not stored: the values are recomputed (each method that changes
    the list calls invalidate_cache first). *)
From Verif Require Export Match.
Local Open Scope string_scope.
Local Open Scope list_scope.
Local Open Scope Z_scope.

(** An action value: None (pop, dec, copy), an int (output port, ethertype, ttl, queue), the
    (field, value) pair of SET_FIELD, or a Group (rule.py:1022-1063). Group.number is ignored
    by __eq__ and omitted; a bucket (an ActionSet) is represented by the sequence it iterates
    over, which is all that __eq__ and _per_output_actions_list read. *)
Inductive aval :=
| VNone
| VInt (n : Z)
| VSet (field : string) (v : Z)
| VGroup (gtype : string) (buckets : list (list (string * aval))).
Definition action : Type := string * aval.

(** Induction on values, through the buckets. *)
Section AvalInd.
  Context (P : aval -> Prop) (HN : P VNone) (HI : forall n, P (VInt n)) (HS : forall f v, P (VSet f v)).
  Context (HG : forall t bs, Forall (Forall (fun a => P (snd a))) bs -> P (VGroup t bs)).
  Fixpoint aval_ind' (v : aval) : P v :=
    match v with
    | VNone => HN
    | VInt n => HI n
    | VSet f x => HS f x
    | VGroup t bs => HG t bs
        ((fix go bs : Forall (Forall (fun a : string * aval => P (snd a))) bs :=
            match bs with
            | [] => Forall_nil _
            | b :: r => Forall_cons _
                ((fix go2 b : Forall (fun a : string * aval => P (snd a)) b :=
                    match b with
                    | [] => Forall_nil _
                    | a :: r' => Forall_cons _ (aval_ind' (snd a)) (go2 r')
                    end) b) (go r)
            end) bs)
    end.
End AvalInd.

(** Equality of values (Python ==). *)
Fixpoint aval_eqb (x y : aval) : bool :=
  match x, y with
  | VNone, VNone => true
  | VInt n, VInt m => n =? m
  | VSet f v, VSet g w => String.eqb f g && (v =? w)
  | VGroup t bs, VGroup u cs =>
    String.eqb t u &&
    ((fix go bs cs :=
        match bs, cs with
        | [], [] => true
        | b :: bs', c :: cs' =>
          ((fix go2 (b c : list (string * aval)) :=
              match b, c with
              | [], [] => true
              | (s, v) :: b', (s', v') :: c' => String.eqb s s' && aval_eqb v v' && go2 b' c'
              | _, _ => false
              end) b c) && go bs' cs'
        | _, _ => false
        end) bs cs)
  | _, _ => false
  end.
Definition act_eqb (a b : action) : bool := String.eqb (fst a) (fst b) && aval_eqb (snd a) (snd b).

Lemma aval_eqb_eq x : forall y, aval_eqb x y = true <-> x = y.
Proof.
  induction x as [|n|f v|t bs IH] using aval_ind'; intros y; destruct y as [|m|g w|u cs]; cbn [aval_eqb]; try (split; congruence).
  - rewrite Z.eqb_eq. split; congruence.
  - rewrite andb_true_iff, String.eqb_eq, Z.eqb_eq. split; [intros [-> ->]; auto|intros [= -> ->]; auto].
  - rewrite andb_true_iff, String.eqb_eq.
    assert (G : forall cs, (fix go bs cs :=
        match bs, cs with
        | [], [] => true
        | b :: bs', c :: cs' =>
          ((fix go2 (b c : list (string * aval)) :=
              match b, c with
              | [], [] => true
              | (s, v) :: b', (s', v') :: c' => String.eqb s s' && aval_eqb v v' && go2 b' c'
              | _, _ => false
              end) b c) && go bs' cs'
        | _, _ => false
        end) bs cs = true <-> bs = cs).
    { clear - IH. induction IH as [|b bs Hb Hbs IHbs]; intros [|c cs]; try (split; congruence).
      rewrite andb_true_iff, IHbs.
      assert (G2 : forall c, (fix go2 (b c : list (string * aval)) :=
              match b, c with
              | [], [] => true
              | (s, v) :: b', (s', v') :: c' => String.eqb s s' && aval_eqb v v' && go2 b' c'
              | _, _ => false
              end) b c = true <-> b = c).
      { clear - Hb. induction Hb as [|[s v] b Hv Hb IHb]; intros [|[s' v'] c]; try (split; congruence).
        cbn [snd] in Hv. rewrite !andb_true_iff, String.eqb_eq, Hv, IHb. split; [intros [[-> ->] ->]; auto|intros [= -> -> ->]; auto]. }
      rewrite G2. split; [intros [-> ->]; auto|intros [= -> ->]; auto]. }
    rewrite G. split; [intros [-> ->]; auto|intros [= -> ->]; auto].
Qed.
Lemma act_eqb_eq a b : act_eqb a b = true <-> a = b.
Proof.
  destruct a as [s v], b as [s' v']. unfold act_eqb. cbn [fst snd]. rewrite andb_true_iff, String.eqb_eq, aval_eqb_eq.
  split; [intros [-> ->]; auto|intros [= -> ->]; auto].
Qed.
Definition act_eq_dec (a b : action) : {a = b} + {a <> b}.
Proof. destruct (act_eqb a b) eqn:E; [left|right]; rewrite <- act_eqb_eq; congruence. Defined.

(** ** Python's tuple ordering (type, value) < (type', value')
    Strings compare by code point. Comparing None, int, tuple and Group values of different
    kinds, or two different Groups, with < is a TypeError in Python 3: None below. *)
Definition val_cmp (x y : aval) : option comparison :=
  match x, y with
  | VNone, VNone => Some Eq
  | VInt n, VInt m => Some (n ?= m)
  | VSet f v, VSet g w =>
    match String.compare f g with Eq => Some (v ?= w) | c => Some c end
  | VGroup _ _, VGroup _ _ => if aval_eqb x y then Some Eq else None
  | _, _ => None
  end.
Definition act_cmp (a b : action) : option comparison :=
  match String.compare (fst a) (fst b) with
  | Eq => val_cmp (snd a) (snd b)
  | c => Some c
  end.
Definition act_lt (a b : action) : result bool :=
  match act_cmp a b with
  | Some Lt => Ok true
  | Some _ => Ok false
  | None => Err TypeError
  end.

(** CPython's bisect.insort (insort_right): binary search with x < a[mid], then insert. *)
Fixpoint bisect (fuel : nat) (l : list action) (x : action) (lo hi : nat) : result nat :=
  match fuel with
  | O => Err OutOfFuel
  | S f =>
    if Nat.ltb lo hi then
      let mid := Nat.div2 (lo + hi) in
      do b <- match nth_error l mid with Some y => act_lt x y | None => Err IndexError end;
      if (b : bool) then bisect f l x lo mid else bisect f l x (S mid) hi
    else Ok lo
  end.
Definition insort (l : list action) (x : action) : result (list action) :=
  do k <- bisect (S (List.length l)) l x 0 (List.length l);
  Ok (firstn k l ++ x :: skipn k l).

(** ** The dependency table *)
(** rule.py:741-742 to_type: the action type, or ("SET_FIELD", field). *)
Inductive atype := TName (n : string) | TSet (f : string).
Definition atype_eqb (a b : atype) : bool :=
  match a, b with TName n, TName m => String.eqb n m | TSet f, TSet g => String.eqb f g | _, _ => false end.
Definition to_type (a : action) : result atype :=
  if String.eqb (fst a) "SET_FIELD" then
    match snd a with VSet f _ => Ok (TSet f) | _ => Err TypeError end
  else Ok (TName (fst a)).

(** openflow_desc.py:289-293 *)
Definition action_set_order : list string :=
  ["COPY_TTL_IN"; "POP_VLAN"; "POP_PBB"; "POP_MPLS"; "PUSH_MPLS"; "PUSH_PBB"; "PUSH_VLAN";
   "COPY_TTL_OUT"; "DEC_MPLS_TTL"; "DEC_NW_TTL"; "SET_FIELD"; "SET_MPLS_TTL"; "SET_NW_TTL";
   "SET_QUEUE"; "GROUP"; "OUTPUT"].
(** openflow_desc.py:297-299 *)
Definition set_ttl : list string :=
  ["COPY_TTL_OUT"; "COPY_TTL_IN"; "SET_MPLS_TTL"; "DEC_MPLS_TTL"; "PUSH_MPLS"; "POP_MPLS";
   "SET_NW_TTL"; "DEC_NW_TTL"].
Definition str_in (s : string) (l : list string) : bool := existsb (String.eqb s) l.
Definition set_minus (l r : list string) : list string := filter (fun x => negb (str_in x r)) l.

(** openflow_desc.py:307-399 action_dependancies; the misspelt "DEC_MPLS_TLL" of line 334 is
    kept. Fields that only depend on themselves are listed in [plain_fields]. *)
Definition plain_fields : list string :=
  ["IN_PORT"; "IN_PHY_PORT"; "METADATA"; "IP_DSCP"; "IP_ECN"; "IP_PROTO"; "IPV4_SRC"; "IPV4_DST";
   "TCP_SRC"; "TCP_DST"; "UDP_SRC"; "UDP_DST"; "SCTP_SRC"; "SCTP_DST"; "ICMPV4_TYPE"; "ICMPV4_CODE";
   "ARP_OP"; "ARP_SPA"; "ARP_TPA"; "ARP_SHA"; "ARP_THA"; "IPV6_SRC"; "IPV6_DST"; "IPV6_FLABEL";
   "ICMPV6_TYPE"; "ICMPV6_CODE"; "IPV6_ND_TARGET"; "IPV6_ND_SLL"; "IPV6_ND_TLL"; "TUNNEL_ID"; "IPV6_EXTHDR"].
Definition names (l : list string) : list atype := map TName l.
Definition name_deps : list (string * list atype) :=
  [("OUTPUT", names (set_minus action_set_order ["OUTPUT"; "GROUP"]));
   ("GROUP", names (set_minus action_set_order ["OUTPUT"; "GROUP"]));
   ("COPY_TTL_OUT", names (set_minus set_ttl ["COPY_TTL_OUT"]));
   ("COPY_TTL_IN", names (set_minus set_ttl ["COPY_TTL_IN"]));
   ("SET_MPLS_TTL", names ["PUSH_MPLS"; "POP_MPLS"; "SET_MPLS_TTL"]);
   ("DEC_MPLS_TTL", names (set_minus set_ttl ["DEC_MPLS_TLL"; "SET_NW_TTL"; "DEC_NW_TTL"]));
   ("PUSH_VLAN", names ["PUSH_VLAN"; "POP_VLAN"; "PUSH_PBB"; "POP_PBB"]);
   ("POP_VLAN", names ["PUSH_VLAN"; "PUSH_PBB"]);
   ("PUSH_MPLS", names set_ttl);
   ("POP_MPLS", names set_ttl);
   ("SET_QUEUE", names ["SET_QUEUE"]);
   ("SET_NW_TTL", names ["SET_NW_TTL"; "COPY_TTL_IN"]);
   ("DEC_NW_TTL", names ["SET_NW_TTL"; "COPY_TTL_IN"]);
   ("SET_FIELD", []);
   ("PUSH_PBB", names ["PUSH_PBB"; "PUSH_VLAN"; "POP_VLAN"; "POP_PBB"] ++ [TSet "ETH_SRC"; TSet "ETH_DST"; TSet "VLAN_PCP"]);
   ("POP_PBB", names ["PUSH_PBB"; "PUSH_VLAN"])].
Definition field_deps : list (string * list atype) :=
  [("ETH_DST", [TName "POP_PBB"; TName "PUSH_PBB"; TSet "ETH_DST"]);
   ("ETH_SRC", [TName "POP_PBB"; TName "PUSH_PBB"; TSet "ETH_SRC"]);
   ("ETH_TYPE", names ["POP_PBB"; "PUSH_PBB"; "PUSH_MPLS"; "POP_MPLS"; "POP_VLAN"; "PUSH_VLAN"] ++ [TSet "ETH_TYPE"]);
   ("VLAN_VID", [TSet "VLAN_VID"; TName "PUSH_VLAN"; TName "POP_VLAN"]);
   ("VLAN_PCP", [TSet "VLAN_PCP"; TName "PUSH_VLAN"; TName "POP_VLAN"; TName "PUSH_PBB"]);
   ("MPLS_LABEL", [TSet "MPLS_LABEL"; TName "PUSH_MPLS"; TName "POP_MPLS"]);
   ("MPLS_TC", [TSet "MPLS_TC"; TName "PUSH_MPLS"; TName "POP_MPLS"]);
   ("MPLS_BOS", [TSet "MPLS_BOS"; TName "PUSH_MPLS"; TName "POP_MPLS"]);
   ("PBB_ISID", [TSet "PBB_ISID"; TName "PUSH_PBB"; TName "POP_PBB"])]
  ++ map (fun f => (f, [TSet f])) plain_fields.
Fixpoint sassoc {V} (k : string) (l : list (string * V)) : option V :=
  match l with [] => None | (k', v) :: t => if String.eqb k' k then Some v else sassoc k t end.
Definition action_dependancies (t : atype) : result (list atype) :=
  match (match t with TName n => sassoc n name_deps | TSet f => sassoc f field_deps end) with
  | Some l => Ok l
  | None => Err KeyError
  end.
Definition type_in (t : atype) (l : list atype) : bool := existsb (atype_eqb t) l.

(** rule.py:744-760 depends *)
Definition depends (item1 item2 : action) : result bool :=
  do type1 <- to_type item1;
  do type2 <- to_type item2;
  do deps1 <- action_dependancies type1;
  do deps2 <- action_dependancies type2;
  if (String.eqb (fst item1) "SET_FIELD" && type_in (TName "SET_FIELD") deps2)
     || (String.eqb (fst item2) "SET_FIELD" && type_in (TName "SET_FIELD") deps1)
  then Ok true
  else Ok (type_in type1 deps2 || type_in type2 deps1).

(** ** ActionList *)
Record alist := mkAL { orig_order : list action; action_levels : list (list action) }.
Definition al_empty : alist := mkAL [] [].

(** rule.py:469-480 _append. [any_dep]: does some item of the level depend? (the loop has no
    break, so every item is tested and may raise). Levels are counted from 0; the result is
    deepest_dep + 1. *)
Fixpoint any_dep (v : list action) (i : action) : result bool :=
  match v with
  | [] => Ok false
  | item :: t => do b <- depends item i; do r <- any_dep t i; Ok (b || r)
  end.
Fixpoint deepest (levels : list (list action)) (i : action) (l best : nat) : result nat :=
  match levels with
  | [] => Ok best
  | v :: t => do b <- any_dep v i; deepest t i (S l) (if (b : bool) then S l else best)
  end.
Fixpoint insert_at (levels : list (list action)) (k : nat) (i : action) : result (list (list action)) :=
  match levels, k with
  | [], _ => Ok [[i]]
  | v :: t, O => do v' <- insort v i; Ok (v' :: t)
  | v :: t, S k' => do t' <- insert_at t k' i; Ok (v :: t')
  end.
Definition levels_append (levels : list (list action)) (i : action) : result (list (list action)) :=
  do k <- deepest levels i 0 0;
  insert_at levels k i.

(** rule.py:482-489 append *)
Definition al_append (l : alist) (i : action) : result alist :=
  do lv <- levels_append (action_levels l) i;
  Ok (mkAL (orig_order l ++ [i]) lv).
Definition al_extend (l : alist) (xs : list action) : result alist := rfold al_append xs l.
(** ActionList(iterable) (448-463), replace (571-578) *)
Definition al_of (xs : list action) : result alist := al_extend al_empty xs.
(** rule.py:494-498 __iter__ *)
Definition al_iter (l : alist) : list action := List.concat (action_levels l).
(** rule.py:721-735 __eq__: len is that of orig_order *)
Definition al_eqb (a b : alist) : bool :=
  Nat.eqb (List.length (orig_order a)) (List.length (orig_order b)) &&
  (if list_eq_dec act_eq_dec (al_iter a) (al_iter b) then true else false).

(** list.remove: the first equal element, ValueError if there is none *)
Fixpoint list_remove (x : action) (l : list action) : option (list action) :=
  match l with
  | [] => None
  | y :: t => if act_eqb y x then Some t else option_map (cons y) (list_remove x t)
  end.
(** rule.py:541-558 remove *)
Fixpoint remove_levels (x : action) (done rest : list (list action)) (offset : nat) : option (list (list action) * nat) :=
  match rest with
  | [] => None
  | v :: t => if existsb (fun y => act_eqb y x) v then Some (done, offset)
              else remove_levels x (done ++ [v]) t (offset + List.length v)
  end.
Definition al_remove (l : alist) (x : action) : result alist :=
  match list_remove x (orig_order l) with
  | None => Err ValueError
  | Some orig =>
    match remove_levels x [] (action_levels l) 0 with
    | None => Err ValueError
    | Some (kept, offset) =>
      do lv <- rfold levels_append (skipn offset orig) kept;
      Ok (mkAL orig lv)
    end
  end.
(** rule.py:793-820 copy(add, remove) *)
Fixpoint remove_each (rs : list action) (l : list action) : result (list action) :=
  match rs with
  | [] => Ok l
  | r :: t => match list_remove r l with Some l' => remove_each t l' | None => Err ValueError end
  end.
Definition al_copy (l : alist) (add remove : list action) : result alist :=
  match remove with
  | [] => al_extend l add
  | [r] => do l' <- al_remove l r; al_extend l' add
  | _ => do xs <- remove_each remove (orig_order l); al_of (xs ++ add)
  end.
(** rule.py:505-506 __add__ *)
Definition al_add (a b : alist) : result alist := al_copy a (al_iter b) [].

(** ** Redundancy removal, rule.py:580-669 *)
Fixpoint find_tun (key : tunnel -> string) (name : string) (l : list tunnel) : option tunnel :=
  match l with [] => None | t :: r => if String.eqb (key t) name then Some t else find_tun key name r end.
Definition push_of (a : action) : option tunnel := find_tun tun_push (fst a) tunnels.
Definition pop_of (a : action) : option tunnel := find_tun tun_pop (fst a) tunnels.
(** the SET_FIELD's field, if the action is one (act[1][0]) *)
Definition set_field_of (a : action) : option string :=
  if String.eqb (fst a) "SET_FIELD" then match snd a with VSet f _ => Some f | _ => None end else None.
Definition sets_one_of (fields : list string) (a : action) : bool :=
  match set_field_of a with Some f => str_in f fields | None => false end.

(** 613-637: the rest of the list after a push of tunnel [ct], with the matching pop and the
    set-fields of the tunnel before it deleted; None when the scan ends without one. *)
Fixpoint drop_pair (ct : tunnel) (rest : list action) : option (list action) :=
  match rest with
  | [] => None
  | act :: t =>
    if String.eqb (fst act) (tun_push ct) then None
    else if String.eqb (fst act) (tun_pop ct) then Some t
    else if sets_one_of (tun_fields ct) act then drop_pair ct t
    else option_map (cons act) (drop_pair ct t)
  end.
(** 608-642: the for loop, one deletion or none *)
Fixpoint drop_first_pair (l : list action) : option (list action) :=
  match l with
  | [] => None
  | a :: t =>
    match (match push_of a with Some ct => drop_pair ct t | None => None end) with
    | Some t' => Some t'
    | None => option_map (cons a) (drop_first_pair t)
    end
  end.
(** 606-642: while made_change *)
Fixpoint drop_pairs (fuel : nat) (l : list action) : result (list action) :=
  match fuel with
  | O => Err OutOfFuel
  | S f => match drop_first_pair l with Some l' => drop_pairs f l' | None => Ok l end
  end.
(** 644-655: set-fields of a header popped later. Returns the list and fields_popped. *)
Fixpoint drop_popped (l : list action) : list action * list string :=
  match l with
  | [] => ([], [])
  | a :: t =>
    let '(t', popped) := drop_popped t in
    match pop_of a with
    | Some tn => (a :: t', tun_fields tn ++ popped)
    | None => if sets_one_of popped a then (t', popped) else (a :: t', popped)
    end
  end.
(** 657-668: fields set twice. [overwritten a rest]: scan the actions after [a]. *)
Fixpoint overwritten (a : action) (f : string) (rest : list action) : result bool :=
  match rest with
  | [] => Ok false
  | act :: t =>
    if (match set_field_of act with Some g => String.eqb g f | None => false end) then Ok true
    else do d <- depends a act;
         if (d : bool) then Ok false else overwritten a f t
  end.
Fixpoint drop_overwritten (l : list action) : result (list action) :=
  match l with
  | [] => Ok []
  | a :: t =>
    do gone <- match set_field_of a with Some f => overwritten a f t | None => Ok false end;
    do t' <- drop_overwritten t;
    Ok (if (gone : bool) then t' else a :: t')
  end.
Definition remove_redundant_list (l : list action) : result (list action) :=
  do l1 <- drop_pairs (S (List.length l)) l;
  drop_overwritten (fst (drop_popped l1)).
Definition remove_redundant (l : alist) : result alist :=
  do xs <- remove_redundant_list (al_iter l);
  al_of xs.

(** ** per_output_actions, rule.py:671-712 *)
(** A dict from port to value. The keys are ints here (an OUTPUT with another value is
    rejected as a TypeError, which Python would not do); the dict ends up in a frozenset, so
    only its contents matter and it is kept sorted by port. *)
Section PoMap.
  Context {V : Type}.
  Fixpoint po_set (d : list (Z * V)) (k : Z) (v : V) : list (Z * V) :=
    match d with
    | [] => [(k, v)]
    | (k', v') :: t =>
      if k <? k' then (k, v) :: d
      else if k =? k' then (k, v) :: t
      else (k', v') :: po_set t k v
    end.
  Definition po_update (d e : list (Z * V)) : list (Z * V) :=
    fold_left (fun acc kv => po_set acc (fst kv) (snd kv)) e d.
  Definition po_get (d : list (Z * V)) (k : Z) : option V :=
    option_map snd (find (fun kv => fst kv =? k) d).
End PoMap.

(** _per_output_actions_list (689-712) over the iteration sequence of the list: the port dict
    and the value of 'pass'. 'pass' entries of buckets (group_res["pass"]) are overwritten by
    line 711 and not kept. Line 694: a port listed twice keeps its last entry. *)
Fixpoint po_list_val (v : aval) : result (list (Z * alist)) :=
  match v with
  | VGroup _ buckets =>
    (fix go_b bs acc : result (list (Z * alist)) :=
       match bs with
       | [] => Ok acc
       | b :: bs' =>
         do (d, _) <- (fix go_a (l : list (string * aval)) (res : list (Z * alist)) (cur : alist) {struct l}
                       : result (list (Z * alist) * alist) :=
             match l with
             | [] => Ok (res, cur)
             | a :: t =>
               if String.eqb (fst a) "OUTPUT" then
                 match snd a with
                 | VInt port => do out <- al_append cur a; go_a t (po_set res port out) cur
                 | _ => Err TypeError
                 end
               else if String.eqb (fst a) "GROUP" then
                 do g <- po_list_val (snd a);
                 do res' <- rfold (fun acc kv => do x <- al_add cur (snd kv); Ok (po_set acc (fst kv) x)) g res;
                 go_a t res' cur
               else do cur' <- al_append cur a; go_a t res cur'
             end) b [] al_empty;
         go_b bs' (po_update acc d)
       end) buckets []
  | _ => Err AttributeError
  end.
Fixpoint po_list (l : list action) (res : list (Z * alist)) (cur : alist) : result (list (Z * alist) * alist) :=
  match l with
  | [] => Ok (res, cur)
  | a :: t =>
    if String.eqb (fst a) "OUTPUT" then
      match snd a with
      | VInt port => do out <- al_append cur a; po_list t (po_set res port out) cur
      | _ => Err TypeError
      end
    else if String.eqb (fst a) "GROUP" then
      do g <- po_list_val (snd a);
      do res' <- rfold (fun acc kv => do x <- al_add cur (snd kv); Ok (po_set acc (fst kv) x)) g res;
      po_list t res' cur
    else do cur' <- al_append cur a; po_list t res cur'
  end.
(** per_output_actions (671-687): ports, and the 'pass' entry that is deleted unless
    pass_through. *)
Definition po_value : Type := list (Z * list action).
Fixpoint po_clean (d : list (Z * alist)) : result po_value :=
  match d with
  | [] => Ok []
  | (k, v) :: t => do v' <- remove_redundant v; do t' <- po_clean t; Ok ((k, al_iter v') :: t')
  end.
Definition per_output_actions_pt (l : alist) : result (po_value * list action) :=
  do (d, cur) <- po_list (al_iter l) [] al_empty;
  do d' <- po_clean d;
  do p <- remove_redundant cur;
  Ok (d', al_iter p).
Definition per_output_actions (l : alist) : result po_value :=
  do r <- per_output_actions_pt l; Ok (fst r).

(** ** ActionSet, rule.py:826-875 *)
(** 833-849: the loop over the current actions. Some None: return without change. *)
Fixpoint set_find (t : string) (v : aval) (l : list action) : result (option (option action)) :=
  match l with
  | [] => Ok (Some None)                                     (* nothing to replace *)
  | x :: r =>
    if String.eqb t (fst x) then
      if String.eqb t "SET_FIELD" then
        match v, snd x with
        | VSet f _, VSet g _ => if String.eqb f g then Ok (Some (Some x)) else set_find t v r
        | _, _ => Err TypeError
        end
      else Ok (Some (Some x))
    else if String.eqb t "GROUP" && String.eqb (fst x) "OUTPUT" then Ok (Some (Some x))
    else if String.eqb t "OUTPUT" && String.eqb (fst x) "GROUP" then Ok None
    else set_find t v r
  end.
Fixpoint replace_first (x y : action) (l : list action) : option (list action) :=
  match l with
  | [] => None
  | z :: t => if act_eqb z x then Some (y :: t) else option_map (cons z) (replace_first x y t)
  end.
(** 857-863: the first level that contains it *)
Fixpoint replace_level (x y : action) (ls : list (list action)) : option (list (list action)) :=
  match ls with
  | [] => None
  | v :: t => match replace_first x y v with
              | Some v' => Some (v' :: t)
              | None => option_map (cons v) (replace_level x y t)
              end
  end.
Fixpoint index_str (s : string) (l : list string) (k : nat) : option nat :=
  match l with [] => None | x :: t => if String.eqb x s then Some k else index_str s t (S k) end.
(** list.sort(key): stable *)
Fixpoint insert_key (k : nat) (x : action) (l : list (nat * action)) : list (nat * action) :=
  match l with
  | [] => [(k, x)]
  | (k', y) :: t => if Nat.leb k' k then (k', y) :: insert_key k x t else (k, x) :: l
  end.
Fixpoint set_sort (l : list action) (acc : list (nat * action)) : result (list action) :=
  match l with
  | [] => Ok (map snd acc)
  | x :: t => match index_str (fst x) action_set_order 0 with
              | Some k => set_sort t (insert_key k x acc)
              | None => Err ValueError
              end
  end.
Definition as_append (s : alist) (i : action) : result alist :=
  do f <- set_find (fst i) (snd i) (al_iter s);
  match f with
  | None => Ok s
  | Some (Some rem) =>
    match replace_first rem i (orig_order s) with
    | None => Err ValueError
    | Some orig =>
      match replace_level rem i (action_levels s) with
      | None => Err AssertionError
      | Some lv => Ok (mkAL orig lv)
      end
    end
  | Some None =>
    do orig <- set_sort (orig_order s ++ [i]) [];
    do lv <- rfold levels_append orig [];
    Ok (mkAL orig lv)
  end.
Definition as_extend (s : alist) (xs : list action) : result alist := rfold as_append xs s.
Definition as_of (xs : list action) : result alist := as_extend al_empty xs.
(** ActionSet + ActionSet: __add__ -> copy(add), rule.py:505, 815-820 *)
Definition as_add (a b : alist) : result alist := as_extend a (al_iter b).

(** ** Instructions, rule.py:878-1009 *)
Record instructions := mkInst {
  goto_table : option Z;
  apply_actions : alist;
  write_actions : alist;                      (* an ActionSet *)
  write_metadata : option (Z * option Z);
  clear_actions : bool;                       (* True / None *)
  meter : option Z }.
Definition inst_empty : instructions := mkInst None al_empty al_empty None false None.

(** 955-957 full_actions *)
Definition full_actions (i : instructions) : result alist := al_add (apply_actions i) (write_actions i).

(** 978-1005 merge: write_metadata and meter of the result stay None. *)
Definition inst_merge (s r : instructions) : result instructions :=
  do w <- (if clear_actions r then Ok (write_actions r) else as_add (write_actions s) (write_actions r));
  do a <- al_add (apply_actions s) (apply_actions r);
  Ok (mkInst (goto_table r) a w None (clear_actions s || clear_actions r) None).

(** 959-976 canonical *)
Definition inst_canonical (i : instructions) :=
  do a <- per_output_actions_pt (apply_actions i);
  do w <- per_output_actions_pt (write_actions i);
  Ok (clear_actions i, goto_table i, meter i, write_metadata i, a, w).

(** 901-911 __eq__ *)
Definition opt_eqb {X} (eqb : X -> X -> bool) (a b : option X) : bool :=
  match a, b with Some x, Some y => eqb x y | None, None => true | _, _ => false end.
Definition meta_eqb (a b : Z * option Z) : bool := (fst a =? fst b) && opt_eqb Z.eqb (snd a) (snd b).
Definition inst_eqb (a b : instructions) : bool :=
  opt_eqb Z.eqb (goto_table a) (goto_table b) && opt_eqb meta_eqb (write_metadata a) (write_metadata b) &&
  Bool.eqb (clear_actions a) (clear_actions b) && al_eqb (apply_actions a) (apply_actions b) &&
  al_eqb (write_actions a) (write_actions b) && opt_eqb Z.eqb (meter a) (meter b).
