(** Tag demotion, simulated egress and rule merging. Models ofequivalence/rule.py:56-110 and
    154-427. ttp_link is always None, so OF is G_OF. *)
From Coq Require Import DecimalString.
From Verif Require Export Rule.
Local Open Scope string_scope.
Local Open Scope list_scope.
Local Open Scope Z_scope.

(** ** Code that may allocate field ids in G_OF and may raise *)
Definition st (A : Type) : Type := registry -> registry * result A.
Definition sret {A} (a : A) : st A := fun r => (r, Ok a).
Definition slift {A} (x : result A) : st A := fun r => (r, x).
Definition sbind {A B} (m : st A) (f : A -> st B) : st B :=
  fun r => match m r with (r', Ok a) => f a r' | (r', Err e) => (r', Err e) end.
Notation "'sdo' x <- m ; f" := (sbind m (fun x => f)) (at level 200, x pattern, m at level 100, f at level 200).
Fixpoint sfold {A B} (f : B -> A -> st B) (l : list A) (b : B) : st B :=
  match l with [] => sret b | a :: t => sdo b' <- f b a; sfold f t b' end.

Definition s_append (m : Match) (name : string) (v : Z) (mk : option Z) : st Match :=
  fun r => let '(r', m') := match_append r m name v mk in (r', Ok m').
(** [del m[name]]; the state left behind by a KeyError is never looked at *)
Definition s_del (m : Match) (name : string) : st Match :=
  slift (match match_del m name with (m', Ok _) => Ok m' | (_, Err e) => Err e end).
(** [m[name]] and [name in m] *)
Definition mget (m : Match) (name : string) : option (Z * option Z * Z) := dict_get (m_items m) name.
Definition s_get (m : Match) (name : string) : st (Z * option Z * Z) :=
  slift (match mget m name with Some x => Ok x | None => Err KeyError end).
Definition mhas (m : Match) (name : string) : bool := match mget m name with Some _ => true | None => false end.
Definition mkeys (m : Match) : list string := map fst (m_items m).

(** str(n) *)
Definition str_of (n : Z) : string := NilZero.string_of_int (Z.to_int n).
(** int(s): an optional minus sign and digits. (Python also takes blanks, underscores, a plus
    sign; such suffixes of field names are a ValueError here.) *)
Definition int_of (s : string) : result Z :=
  match NilZero.int_of_string s with Some i => Ok (Z.of_int i) | None => Err ValueError end.
(** x[len(field):] *)
Definition suffix (field x : string) : string :=
  String.substring (String.length field) (String.length x - String.length field) x.

(** list.sort(reverse=True) of distinct strings *)
Fixpoint insert_desc (x : string) (l : list string) : list string :=
  match l with
  | [] => [x]
  | y :: t => match String.compare y x with Lt => x :: l | _ => y :: insert_desc x t end
  end.
Definition sort_desc (l : list string) : list string := fold_right insert_desc [] l.
(** lines 69, 98: the variations of the base field, in dict order *)
Definition variations (m : Match) (field : string) : list string := filter (String.prefix field) (mkeys m).

(** rule.py:56-84 demote_match. The flag says whether [depth] has been assigned: the message of
    the second OverflowError reads it, so without it the error is an UnboundLocalError. *)
Definition demote_one (field : string) (num : Z) (mb : Match * bool) (f : string) : st (Match * bool) :=
  let (m, bound) := mb in
  if negb (String.eqb f field) then
    sdo k <- slift (int_of (suffix field f));
    let depth := k + num in
    if HEADER_DEPTH <? depth then slift (Err OverflowError) else
    sdo (v, mk, _) <- s_get m f;
    sdo m <- s_append m (field ++ str_of depth)%string v mk;
    sdo m <- s_del m f;
    sret (m, true)
  else
    if HEADER_DEPTH <? num then slift (Err (if bound : bool then OverflowError else UnboundLocalError)) else
    sdo (v, mk, _) <- s_get m f;
    sdo m <- s_append m (field ++ str_of num)%string v mk;
    sdo m <- s_del m f;
    sret (m, bound).
Definition demote_match (m : Match) (field : string) (num : Z) : st Match :=
  if num =? 0 then sret m else
  sdo (m', _) <- sfold (demote_one field num) (sort_desc (variations m field)) (m, false);
  sret m'.

(** rule.py:87-110 promote_match: no sorting, the variations are visited in dict order. *)
Definition promote_one (field : string) (num : Z) (m : Match) (f : string) : st Match :=
  if negb (String.eqb f field) then
    sdo k <- slift (int_of (suffix field f));
    let depth := k - num in
    if 0 <? depth then
      sdo (v, mk, _) <- s_get m f;
      sdo m <- s_append m (field ++ str_of depth)%string v mk;
      s_del m f
    else if depth =? 0 then
      sdo (v, mk, _) <- s_get m f;
      sdo m <- s_append m field v mk;
      s_del m f
    else slift (Err OverflowError)
  else slift (Err OverflowError).
Definition promote_match (m : Match) (field : string) (num : Z) : st Match :=
  if num =? 0 then sret m else sfold (promote_one field num) (variations m field) m.

(** ** rule.py:170-264 _get_simulated_egress *)
(** op_count: a defaultdict(lambda: 0) *)
Definition count_get (d : dict Z) (k : string) : Z := match dict_get d k with Some n => n | None => 0 end.
Definition count_inc (d : dict Z) (k : string) : dict Z := dict_set d k (count_get d k + 1).
Record egress := mkEg { eg_sim : Match; eg_rew : Match; eg_ops : dict Z }.

(** lines 202-204 *)
Definition vid_value (field : string) (v : Z) : Z := if String.eqb field "VLAN_VID" then Z.lor 0x1000 v else v.
Definition sim_set (e : egress) (f : string) (v : Z) : st egress :=
  sdo s <- s_append (eg_sim e) f (vid_value f v) None;
  sdo w <- s_append (eg_rew e) f (vid_value f v) None;
  sret (mkEg s w (eg_ops e)).
(** lines 211-234 *)
Definition sim_push_field (e : egress) (field : string) : st egress :=
  sdo s <- demote_match (eg_sim e) field 1;
  sdo w <- demote_match (eg_rew e) field 1;
  let mask_in := if String.eqb field "VLAN_VID" then 0x1000 else 0 in
  match mget s (field ++ "1") with
  | Some (v, _, _) =>
    sdo s <- s_append s field (Z.lor mask_in v) None;
    sdo w <- s_append w field (Z.lor mask_in v) None;
    sret (mkEg s w (eg_ops e))
  | None =>
    sdo s <- s_append s field mask_in None;
    sdo w <- s_append w field mask_in None;
    sret (mkEg s w (eg_ops e))
  end.
(** lines 237-244 *)
Definition sim_pop_field (e : egress) (field : string) : st egress :=
  sdo s <- (if mhas (eg_sim e) field then s_del (eg_sim e) field else sret (eg_sim e));
  sdo w <- (if mhas (eg_rew e) field then s_del (eg_rew e) field else sret (eg_rew e));
  sdo s <- promote_match s field 1;
  sdo w <- promote_match w field 1;
  sret (mkEg s w (eg_ops e)).
(** lines 199-245: one action. SET_FIELD with a value that is not a pair is a TypeError. *)
Definition sim_action (e : egress) (a : action) : st egress :=
  if String.eqb (fst a) "SET_FIELD" then
    match snd a with VSet f v => sim_set e f v | _ => slift (Err TypeError) end
  else match push_of a with
  | Some t =>
    sdo e <- sfold sim_push_field (tun_fields t) e;
    sret (mkEg (eg_sim e) (eg_rew e) (count_inc (eg_ops e) (fst a)))
  | None =>
    match pop_of a with
    | Some t =>
      sdo e <- sfold sim_pop_field (tun_fields t) e;
      sret (mkEg (eg_sim e) (eg_rew e) (count_inc (eg_ops e) (fst a)))
    | None => sret e
    end
  end.
(** lines 247-262 *)
Definition sim_metadata (e : egress) (wm : option (Z * option Z)) : st egress :=
  match wm with
  | None => sret e
  | Some (w_value, w_mask) =>
    sdo s <- match mget (eg_sim e) "METADATA", w_mask with
             | Some (m_value, m_mask, _), Some wk =>
               let s_value := Z.lor (Z.land w_value wk) (Z.land (Z.lnot wk) m_value) in
               let s_mask := match m_mask with None => None | Some mk => Some (Z.lor mk wk) end in
               s_append (eg_sim e) "METADATA" s_value s_mask
             | _, _ => s_append (eg_sim e) "METADATA" w_value w_mask
             end;
    sdo w <- s_append (eg_rew e) "METADATA" w_value w_mask;
    sret (mkEg s w (eg_ops e))
  end.
(** [if ingress:] is false for None and for an empty Match *)
Definition s_intersection (a b : Match) : st Match :=
  fun r => match match_wc a, match_wc b with
           | Ok wa, Ok wb => match match_intersection r wa wb with
                             | Ok (r', m) => (r', Ok m)
                             | Err e => (r, Err e)
                             end
           | Err e, _ => (r, Err e)
           | _, Err e => (r, Err e)
           end.
Definition simulated_egress (m : Match) (i : instructions) (ingress : option Match) : st egress :=
  sdo s <- match ingress with
           | Some g => match m_items g with [] => sret m | _ => s_intersection m g end
           | None => sret m
           end;
  sdo e <- sfold sim_action (al_iter (apply_actions i)) (mkEg s match_new []);
  sim_metadata e (write_metadata i).
(** rule.py:266-275, 277-283 *)
Definition get_goto_egress (m : Match) (i : instructions) (ingress : option Match) : st Match :=
  sdo e <- simulated_egress m i ingress; sret (eg_sim e).
Definition egress_overlap (m : Match) (i : instructions) (other : Match) (ingress : option Match) : st bool :=
  sdo g <- get_goto_egress m i ingress;
  sdo wa <- slift (match_wc g);
  sdo wb <- slift (match_wc other);
  sret (negb (wildcard_intersect wa wb =? 0)).

(** ** rule.py:320-423 merge *)
(** lines 359-376: the second match without what the first rule rewrites *)
Definition second_metadata (m2 rew : Match) : st Match :=
  match mget m2 "METADATA", mget rew "METADATA" with
  | Some (v, mm, _), Some (_, rk, _) =>
    match rk with
    | None => s_del m2 "METADATA"
    | Some rk =>
      let mm := match mm with Some k => k | None => 0xFFFFFFFFFFFFFFFF end in
      let new_mask := Z.land mm (Z.lnot rk) in
      if negb (new_mask =? 0) then s_append m2 "METADATA" (Z.land v new_mask) (Some new_mask)
      else s_del m2 "METADATA"
    end
  | _, _ => sret m2
  end.
Definition second_match (m2 rew : Match) : st Match :=
  let remove := filter (fun x => mhas m2 x && negb (String.eqb x "METADATA")) (mkeys rew) in
  sdo m2 <- slift (match_del_all m2 remove);
  second_metadata m2 rew.
(** lines 383-390 *)
Definition shift_tunnel (ops : dict Z) (m : Match) (t : tunnel) : st Match :=
  let count := count_get ops (tun_pop t) - count_get ops (tun_push t) in
  if 0 <? count then sfold (fun m f => demote_match m f count) (tun_fields t) m
  else if count <? 0 then sfold (fun m f => promote_match m f (- count)) (tun_fields t) m
  else sret m.
(** lines 395-410 *)
Definition merge_metadata (m1 m2 : option (Z * option Z)) : option (Z * option Z) :=
  match m1, m2 with
  | None, _ => m2
  | _, None => m1
  | Some (v1, k1), Some (v2, k2) =>
    match k2 with
    | None => Some (v2, k2)
    | Some k2 =>
      let metadata := Z.lor (Z.land v1 (Z.lnot k2)) (Z.land v2 k2) in
      match k1 with
      | None => Some (metadata, None)
      | Some k1 => Some (metadata, Some (Z.lor k1 k2))
      end
    end
  end.
(** x[-1].isdigit(); field names are not empty *)
Fixpoint last_char (s : string) : option Ascii.ascii :=
  match s with
  | EmptyString => None
  | String c EmptyString => Some c
  | String _ t => last_char t
  end.
Definition ends_in_digit (s : string) : bool :=
  match last_char s with
  | Some c => let n := Ascii.nat_of_ascii c in Nat.leb 48 n && Nat.leb n 57
  | None => false
  end.
Definition with_metadata (i : instructions) (wm : option (Z * option Z)) : instructions :=
  mkInst (goto_table i) (apply_actions i) (write_actions i) wm (clear_actions i) (meter i).
(** The new rule has an empty path (the class attribute). *)
Definition core_merge (first second : core) (openflow : bool) : st core :=
  sdo e <- simulated_egress (rmatch first) (inst first) None;
  sdo wa <- slift (match_wc (eg_sim e));
  sdo wb <- slift (match_wc (rmatch second));
  if wildcard_intersect wa wb =? 0 then slift (Err MergeExceptionNoOverlap) else
  sdo m2 <- second_match (rmatch second) (eg_rew e);
  sdo m2 <- sfold (shift_tunnel (eg_ops e)) tunnels m2;
  sdo m <- s_intersection (rmatch first) m2;
  sdo i <- slift (inst_merge (inst first) (inst second));
  let i := with_metadata i (merge_metadata (write_metadata (inst first)) (write_metadata (inst second))) in
  if openflow && existsb ends_in_digit (mkeys m) then slift (Err MergeException) else
  sret (mkCore (priority first + priority second) (cookie first) m i (table first)).
