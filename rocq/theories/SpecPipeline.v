(** Specification of the OpenFlow pipeline: what the tables do with a packet header, and which
    actions are executed. Mentions the layout of the header, the data of the rules and the
    meaning of an action set, no function of the model. *)
From Verif Require Export Spec SpecNormalise SpecSet.
Local Open Scope string_scope.
Local Open Scope list_scope.
Local Open Scope Z_scope.

(** The field that header position [i] belongs to (none for the padding). *)
Definition slot_at (i : Z) : option slot := find (fun s => (sl_off s <=? i) && (i <? sl_off s + sl_bits s)) layout.

(** Writing the bits of [v] that [mask] selects (all without a mask) into a field. *)
Definition write_field (name : string) (v : Z) (mask : option Z) (p : packet) : packet := fun i =>
  match slot_at i with
  | Some s =>
    if String.eqb (sl_name s) name && match mask with None => true | Some m => Z.testbit m (i - sl_off s) end
    then Z.testbit v (i - sl_off s) else p i
  | None => p i
  end.

(** What an action that is not a push or pop does to the header. VLAN_VID is the 13 bit OpenFlow
    field whose top bit says that a tag is present; setting the VLAN id leaves a tag present. *)
Definition act_header (a : action) (p : packet) : packet :=
  match a with
  | ("SET_FIELD", VSet f v) => write_field f (if String.eqb f "VLAN_VID" then Z.lor (2 ^ 12) v else v) None p
  | _ => p
  end.
Definition acts_header (l : list action) (p : packet) : packet := fold_left (fun q a => act_header a q) l p.
Definition metadata_header (wm : option (Z * option Z)) (p : packet) : packet :=
  match wm with None => p | Some (v, m) => write_field "METADATA" v m p end.

(** The header after a rule's instructions: apply-actions in the order they were written, then
    write-metadata. *)
Definition inst_header (i : instructions) (p : packet) : packet :=
  metadata_header (write_metadata i) (acts_header (orig_order (apply_actions i)) p).

(** Rules whose apply-actions neither push nor pop tags, and do not set the metadata (which
    OpenFlow does not allow either). *)
Definition tag_names : list string := ["PUSH_VLAN"; "POP_VLAN"; "PUSH_MPLS"; "POP_MPLS"; "PUSH_PBB"; "POP_PBB"].
Definition plain_act (a : action) : Prop :=
  ~ In (fst a) tag_names /\ (fst a = "SET_FIELD" -> exists f v, snd a = VSet f v /\ f <> "METADATA").
Definition plain_acts (l : list action) : Prop := Forall plain_act l.

(** A header field of an inner tag, e.g. VLAN_VID1. *)
Definition inner_field (n : string) : Prop :=
  exists s base d, In s layout /\ n = sl_name s /\ In d ["1"; "2"] /\ n = (base ++ d)%string.

(** ** The pipeline (OpenFlow 1.3.5, 5.1-5.4) *)
(** The rule of table [t] that a packet hits: the highest priority, the earlier one of two with
    the same priority. *)
Definition table_hit (rules : list rule) (t : Z) (p : packet) (r : rule) : Prop :=
  exists l1 l2, rules = l1 ++ r :: l2 /\ table (rcore r) = t /\ rule_accepts r p /\
  (forall x, In x l1 -> table (rcore x) = t -> rule_accepts x p -> priority (rcore x) < priority (rcore r)) /\
  (forall x, In x l2 -> table (rcore x) = t -> rule_accepts x p -> priority (rcore x) <= priority (rcore r)).
Definition table_miss (rules : list rule) (t : Z) (p : packet) : Prop :=
  forall x, In x rules -> table (rcore x) = t -> ~ rule_accepts x p.

(** What has been written to the action set after a rule, given what was written before. *)
Definition writes_after (i : instructions) (ws : list action) : list action :=
  (if clear_actions i then [] else ws) ++ orig_order (write_actions i).
Definition applied_after (i : instructions) (done : list action) : list action := done ++ orig_order (apply_actions i).

(** [pipeline rules t p done ws miss app wr]: a packet with header [p] that enters table [t] after
    the actions [done] were applied and [ws] written leaves the pipeline with [app] applied and
    [wr] written; [miss] says whether it left because no rule of a table matched. *)
Inductive pipeline (rules : list rule) : Z -> packet -> list action -> list action -> bool -> list action -> list action -> Prop :=
| pl_goto t p done ws r t' miss app wr : table_hit rules t p r -> goto_table (inst (rcore r)) = Some t' ->
    pipeline rules t' (inst_header (inst (rcore r)) p) (applied_after (inst (rcore r)) done) (writes_after (inst (rcore r)) ws) miss app wr ->
    pipeline rules t p done ws miss app wr
| pl_stop t p done ws r : table_hit rules t p r -> goto_table (inst (rcore r)) = None ->
    pipeline rules t p done ws false (applied_after (inst (rcore r)) done) (writes_after (inst (rcore r)) ws)
| pl_miss t p done ws : table_miss rules t p -> pipeline rules t p done ws true done ws.
(** The actions executed on a packet, in order: those applied, then its action set. A packet that
    misses a table is dropped if [drop] (the default of the standard); if not its action set is
    executed (a switch may be configured differently). *)
Definition executes (drop : bool) (rules : list rule) (p : packet) (out : list action) : Prop :=
  exists miss app wr o, pipeline rules 0 p [] [] miss app wr /\ set_list wr o /\ out = app ++ (if miss && drop then [] else o).

(** ** Priorities along a path of rules *)
(** Table by table, the earliest difference decides. *)
Fixpoint lex_lt (a b : list Z) : Prop :=
  match a, b with x :: a', y :: b' => x < y \/ (x = y /\ lex_lt a' b') | _, _ => False end.
(** The priority of the path's rule in table [t]; a table that is skipped counts as 0. *)
Definition prio_in (path : list rule) (t : Z) : Z :=
  match find (fun r => table (rcore r) =? t) path with Some r => priority (rcore r) | None => 0 end.
Definition total_prio (path : list rule) : Z := fold_right (fun r s => priority (rcore r) + s) 0 path.
(** A path visits tables in increasing order. *)
Definition increasing (path : list rule) : Prop := StronglySorted (fun a b => table (rcore a) < table (rcore b)) path.
(** Some packet matches both rules. *)
Definition overlap (a b : rule) : Prop := exists p, rule_accepts a p /\ rule_accepts b p.

(** ** Paths *)
(** The rules a packet hits that enters table [t] with header [p], in order. *)
Inductive visits (rules : list rule) : Z -> packet -> list rule -> Prop :=
| vs_goto t p r t' l : table_hit rules t p r -> goto_table (inst (rcore r)) = Some t' ->
    visits rules t' (inst_header (inst (rcore r)) p) l -> visits rules t p (r :: l)
| vs_stop t p r : table_hit rules t p r -> goto_table (inst (rcore r)) = None -> visits rules t p [r]
| vs_miss t p : table_miss rules t p -> visits rules t p [].
(** A packet matches every rule of the path, each on the header that the earlier ones leave. *)
Fixpoint path_accepts (l : list core) (p : packet) : Prop :=
  match l with
  | [] => True
  | c :: t => match_accepts (items_view (m_items (rmatch c))) p /\ path_accepts t (inst_header (inst c) p)
  end.
(** Equal up to the priority (which the conversion to a single table scales). *)
Definition same_rule (a b : core) : Prop := cookie a = cookie b /\ rmatch a = rmatch b /\ inst a = inst b /\ table a = table b.
