(** Specification of the OpenFlow pipeline for packets with tag stacks: SpecPipeline with rules that
    push and pop tags. Mentions no function of the model. *)
From Verif Require Export SpecPipeline SpecTall.
Local Open Scope string_scope.
Local Open Scope list_scope.
Local Open Scope Z_scope.

(** [tpipeline rules t T done ws miss app wr]: as [pipeline], for the packet [T]; each rule's
    apply-actions, in the order given, and its write-metadata change the packet before the next table. *)
Inductive tpipeline (rules : list rule) : Z -> tall -> list action -> list action -> bool -> list action -> list action -> Prop :=
| tp_goto t T done ws r t' miss app wr : table_hit rules t (tview T) r -> goto_table (inst (rcore r)) = Some t' ->
    tpipeline rules t' (tall_inst (orig_order (apply_actions (inst (rcore r)))) (write_metadata (inst (rcore r))) T)
      (applied_after (inst (rcore r)) done) (writes_after (inst (rcore r)) ws) miss app wr ->
    tpipeline rules t T done ws miss app wr
| tp_stop t T done ws r : table_hit rules t (tview T) r -> goto_table (inst (rcore r)) = None ->
    tpipeline rules t T done ws false (applied_after (inst (rcore r)) done) (writes_after (inst (rcore r)) ws)
| tp_miss t T done ws : table_miss rules t (tview T) -> tpipeline rules t T done ws true done ws.
(** The actions executed on a packet, in order. *)
Definition texecutes (drop : bool) (rules : list rule) (T : tall) (out : list action) : Prop :=
  exists miss app wr o, tpipeline rules 0 T [] [] miss app wr /\ set_list wr o /\ out = app ++ (if miss && drop then [] else o).
