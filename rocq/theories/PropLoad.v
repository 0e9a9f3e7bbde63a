(** Theorems for C78: loading a file without naming its format. *)
From Verif Require Import SpecLoad MatchProofs LoadProofs PropMisc PropOvs.
Import Text.
Local Open Scope string_scope.
Local Open Scope list_scope.
Local Open Scope Z_scope.

(** Written rulesets, whatever the file is called and whatever the order of the set. *)
Theorem C78_written_ovs_partial : forall json pickle name rest rules, raises json -> raises pickle -> remaining name rest -> Forall writable rules ->
  exists file rules', ruleset_to_ovs rules = Ok file /\ ruleset_from_auto json pickle name rest file registry_init = (registry_init, Ok rules') /\
  Forall2 (fun a b => core_eqb a (rcore b) = true /\ made (rcore b) /\ path b = []) rules rules'.
Proof. exact auto_ovs. Qed.
(** Dumped flows and groups (C77): the first line is no route. *)
Theorem C78_dumped_ovs_partial : forall json pickle name rest r line lines gs fs groups r' rules, raises json -> raises pickle -> remaining name rest -> no_route line ->
  file_lines (line :: lines) gs fs -> groups_text [] gs groups -> flows_text r groups fs r' rules ->
  ruleset_from_auto json pickle name rest (file_text (line :: lines)) r = (r', Ok (map (fun c => mkRule c []) rules)).
Proof. exact auto_dump. Qed.
(** Routing tables, unless the name suggests Open vSwitch and not a routing table. *)
Theorem C78_fib_partial : forall json pickle name rest rs lines file reg, raises json -> raises pickle -> remaining name rest ->
  suggests name LFib \/ ~ suggests name LOvs -> reg_ok reg -> Forall2 route_line rs lines -> Forall (fun l => ~ In newline l) lines -> lines_text lines file ->
  exists rules, ruleset_from_fib lines reg = (reg, Ok rules) /\ ruleset_from_auto json pickle name rest file reg = (reg, Ok rules).
Proof. exact auto_fib. Qed.
(** False: text of no format is refused. Text in which no flow and no group is seen always loads,
    as the empty ruleset. *)
Theorem C78_unknown_format_refuted : forall json pickle name rest file r, raises json -> raises pickle -> raises (ruleset_from_fib (file_iter file)) -> remaining name rest -> plain file ->
  ruleset_from_auto json pickle name rest file r = (r, Ok []).
Proof. exact auto_plain. Qed.
(** False: a routing table loads as such. Every one loads as the empty ruleset if the name mentions
    "ovs" but not "fib". *)
Theorem C78_name_refuted : forall json pickle name rest file r, raises json -> raises pickle -> remaining name rest -> suggests name LOvs -> ~ suggests name LFib -> plain file ->
  ruleset_from_auto json pickle name rest file r = (r, Ok []).
Proof. exact auto_hidden. Qed.

(** If no library reads the file, loading fails (in whatever order they are tried). *)
Theorem C78_gives_up : forall json pickle name rest file r, (forall l, raises (load json pickle file l)) -> ruleset_from_auto json pickle name rest file r = (r, Err ValueError).
Proof.
  intros json pickle name rest file r H. unfold ruleset_from_auto. generalize (load_order name rest). intros ls. induction ls as [|l ls IH]; cbn [load_first]; [reflexivity|].
  destruct (H l r) as (e & E). now rewrite E.
Qed.
(** Naming the format, as load_ruleset and the command lines do. The name of the file and the other
    libraries do not matter then: written flows and routing tables always load, json and pickle
    files are left to their libraries, any other format is refused. *)
Theorem C78_named_ovs : forall json pickle name rest rules, Forall writable rules ->
  exists file rules', ruleset_to_ovs rules = Ok file /\ load_ruleset json pickle name rest file "ovs" registry_init = (registry_init, Ok rules') /\
  Forall2 (fun a b => core_eqb a (rcore b) = true /\ made (rcore b) /\ path b = []) rules rules'.
Proof.
  intros json pickle name rest rules F. destruct (OvsWrite.ruleset_round rules F) as (file & cs & E1 & E2 & E3). exists file, (map (fun c => mkRule c []) cs). split; [exact E1|]. split.
  - unfold load_ruleset. cbn [String.eqb Ascii.eqb Bool.eqb orb]. cbn [load]. now rewrite E2.
  - clear -E3. induction E3 as [|a b l l' [H1 H2] E3 IH]; cbn [map]; constructor; auto.
Qed.
Theorem C78_named_fib : forall json pickle name rest rs lines file reg,
  reg_ok reg -> Forall2 route_line rs lines -> Forall (fun l => ~ In newline l) lines -> lines_text lines file ->
  exists rules, ruleset_from_fib lines reg = (reg, Ok rules) /\ load_ruleset json pickle name rest file "fib" reg = (reg, Ok rules).
Proof.
  intros json pickle name rest rs lines file reg G F N L. destruct (MiscProofs.fib_ok reg rs lines G F) as (rules & ports & E & _). exists rules. split; [exact E|].
  unfold load_ruleset. cbn [String.eqb Ascii.eqb Bool.eqb orb]. cbn [load]. now rewrite (iter_lines lines file N L).
Qed.
Theorem C78_named_other : forall json pickle name rest file fmt r,
  (fmt = "auto" -> load_ruleset json pickle name rest file fmt r = ruleset_from_auto json pickle name rest file r) /\
  (fmt = "ryu_json" -> load_ruleset json pickle name rest file fmt r = json r) /\
  (fmt = "ryu_pickle" \/ fmt = "pickle" -> load_ruleset json pickle name rest file fmt r = pickle r) /\
  (~ In fmt ["auto"; "ryu_pickle"; "ryu_json"; "pickle"; "ovs"; "fib"] -> load_ruleset json pickle name rest file fmt r = (r, Err ValueError)).
Proof.
  intros json pickle name rest file fmt r. unfold load_ruleset. split; [intros ->; reflexivity|]. split; [intros ->; reflexivity|]. split; [intros [->| ->]; reflexivity|].
  intros H. cbn [In] in H. repeat match goal with |- context [String.eqb fmt ?s] => destruct (String.eqb_spec fmt s) as [->|]; [exfalso; apply H; tauto|] end. reflexivity.
Qed.

(** *** Examples *)
Definition refuse : st (list rule) := fun r => (r, Err ValueError).
Lemma refuse_raises : raises refuse.
Proof. intros r. eexists. reflexivity. Qed.
Lemma no_mention p s : contains p s = false -> ~ mentions p s.
Proof. intros C (a & b & E). rewrite (proj2 (FormatProofs.contains_spec p s)) in C; [discriminate|]. now exists a, b. Qed.
Lemma is_mention p s : contains p s = true -> mentions p s.
Proof. apply FormatProofs.contains_spec. Qed.
Lemma any_rest : remaining (T "dump.txt") [LFib; LPickle; LJson].
Proof.
  split; [repeat constructor; cbn; intuition discriminate|]. assert (A : forall l, ~ suggests (T "dump.txt") l).
  { intros []; cbn [suggests]; [intros [H|H]; revert H|intros [H|H]; revert H| |]; apply no_mention; vm_compute; reflexivity. }
  intros l. specialize (A l). split; [intros H; split; [|exact A]; cbn in H; destruct l; intuition discriminate|]. intros [H _]. destruct l; cbn; auto; congruence.
Qed.
Example C78_ex_gives_up : forall l, raises (load refuse refuse (T "actions=output:q") l).
Proof. intros []; [exact refuse_raises|exact refuse_raises| |]; intros r; eexists; [vm_compute|cbv -[registry]]; reflexivity. Qed.
Example C78_ex_written : raises refuse /\ remaining (T "dump.txt") [LFib; LPickle; LJson] /\ Forall writable [web; web].
Proof. split; [exact refuse_raises|]. split; [exact any_rest|]. repeat constructor; exact C75_ex. Qed.
Example C78_ex_dumped : no_route (hd [] a_file).
Proof.
  split; [vm_compute; intuition discriminate|]. exists (T "NXST_FLOW"), [T "reply"; T "(xid=0x4):"]. split; [|cbn; intuition discriminate].
  change (hd [] a_file) with (T "NXST_FLOW reply (xid=0x4):").
  apply (sp_word [] (T "NXST_FLOW") " "%char _ (T "reply (xid=0x4):")); [blanks|discriminate|blanks|blanks|].
  apply (sp_word [] (T "reply") " "%char _ (T "(xid=0x4):")); [blanks|discriminate|blanks|blanks|].
  apply (sp_last [] (T "(xid=0x4):") []); [blanks|discriminate|blanks|blanks].
Qed.
Definition table_file (lines : list text) : text := List.concat (map (fun s => s ++ [newline]) lines).
Example C78_ex_fib : Forall2 route_line fib_routes fib_lines /\ Forall (fun l => ~ In newline l) fib_lines /\ lines_text fib_lines (table_file fib_lines) /\
  match ruleset_from_auto refuse refuse (T "dump.txt") [LFib; LPickle; LJson] (table_file fib_lines) registry_init with (_, Ok l) => List.length l = 3%nat | _ => False end.
Proof. split; [exact fib_lines_ok|]. split; [repeat constructor; vm_compute; intuition discriminate|]. split; [now left|]. vm_compute. reflexivity. Qed.
(** the same table with an empty line at its end is read as no rules at all *)
Theorem C78_blank_line_refuted :
  snd (ruleset_from_auto refuse refuse (T "dump.txt") [LFib; LPickle; LJson] (table_file (fib_lines ++ [[]])) registry_init) = Ok [] /\
  snd (ruleset_from_auto refuse refuse (T "dump.txt") [LFib; LPickle; LJson] (T "no ruleset") registry_init) = Ok [] /\
  snd (ruleset_from_auto refuse refuse (T "ovs-routes") [LPickle; LJson; LFib] (table_file fib_lines) registry_init) = Ok [].
Proof. vm_compute. auto. Qed.
Example C78_ex_name : suggests (T "ovs-routes") LOvs /\ ~ suggests (T "ovs-routes") LFib /\ plain (table_file fib_lines).
Proof. split; [apply is_mention; vm_compute; reflexivity|]. split; [|split]; apply no_mention; vm_compute; reflexivity. Qed.
Print Assumptions C78_written_ovs_partial.
Print Assumptions C78_dumped_ovs_partial.
Print Assumptions C78_fib_partial.
Print Assumptions C78_unknown_format_refuted.
Print Assumptions C78_name_refuted.
Print Assumptions C78_blank_line_refuted.
Print Assumptions C78_gives_up.
Print Assumptions C78_named_ovs.
Print Assumptions C78_named_fib.
Print Assumptions C78_named_other.
