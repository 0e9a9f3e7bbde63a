(** Specification for the match-redundancy modes: what rules made of SET_FIELD and OUTPUT send. *)
From Verif Require Export SpecPipeline.
Local Open Scope string_scope.
Local Open Scope list_scope.
Local Open Scope Z_scope.

(** The copies that a list of actions sends: port and header of each. *)
Fixpoint sends (l : list action) (p : packet) : list (Z * packet) :=
  match l with
  | [] => []
  | a :: t => match a with
              | ("OUTPUT", VInt k) => (k, p) :: sends t p
              | _ => sends t (act_header a p)
              end
  end.
Fixpoint out_ports (l : list action) : list Z :=
  match l with
  | [] => []
  | a :: t => match a with ("OUTPUT", VInt k) => k :: out_ports t | _ => out_ports t end
  end.
(** The actions considered: outputs, and setting a field of the header to a value that fits (a
    VLAN id with its present bit). *)
Definition set_or_output (a : action) : Prop :=
  (exists k, a = ("OUTPUT", VInt k)) \/
  (exists s v, In s layout /\ a = ("SET_FIELD", VSet (sl_name s) v) /\ 0 <= v < 2 ^ sl_bits s /\
               (sl_name s = "VLAN_VID" -> Z.testbit v 12 = true)).
(** Instructions whose lists were built with ActionList.append and ActionSet.append. *)
Definition built (r : rule) : Prop :=
  exists xs ws, al_of xs = Ok (apply_actions (inst (rcore r))) /\ as_of ws = Ok (write_actions (inst (rcore r))).
(** The actions that a rule executes: those applied, then the set written. *)
Definition runs_actions (r : rule) (l : list action) : Prop :=
  exists o, set_list (orig_order (write_actions (inst (rcore r)))) o /\ l = orig_order (apply_actions (inst (rcore r))) ++ o.
(** Rules that only set fields and output, to each port once. *)
Definition set_output_rule (r : rule) : Prop := forall l, runs_actions r l -> Forall set_or_output l /\ NoDup (out_ports l).

(** What a table sends for a packet; [None] when no rule matches. *)
Definition table_sends (rules : list rule) (p : packet) (o : option (list (Z * packet))) : Prop :=
  (first_match rules p None /\ o = None) \/
  (exists r l, first_match rules p (Some r) /\ runs_actions r l /\ o = Some (sends l p)).
(** The same headers on the same ports. *)
Definition has_copy (x : list (Z * packet)) (k : Z) (q : packet) : Prop := exists q', In (k, q') x /\ forall i, q' i = q i.
Definition same_copies (x y : list (Z * packet)) : Prop := forall k q, has_copy x k q <-> has_copy y k q.
Definition same_sent (a b : option (list (Z * packet))) : Prop :=
  match a, b with None, None => True | Some x, Some y => same_copies x y | _, _ => False end.
