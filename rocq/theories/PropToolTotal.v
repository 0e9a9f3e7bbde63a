(** Theorems for C92: when check_equivalence answers. *)
From Coq Require Import Permutation Sorted Lia.
From Verif Require Import Tool SpecTool ToolProofs ToolTotal MatchProofs NormaliseProofs MergeProofs EagerProofs SingleTableProofs PriorityProofs
  ActionSetProofs ActionProofs InstProofs ExecProofs LazyProofs PropNormalise PropMerge PropSingle PropTool PropConvert.
Local Open Scope string_scope.
Local Open Scope list_scope.
Local Open Scope Z_scope.

(** ** C92 *)
(** An action with the kind of value that it takes, other than GROUP. *)
Inductive ordinary : action -> Prop :=
| or_number n k : In n ["OUTPUT"; "SET_QUEUE"; "SET_NW_TTL"; "SET_MPLS_TTL"; "PUSH_VLAN"; "PUSH_MPLS"; "PUSH_PBB"; "POP_MPLS"] -> ordinary (n, VInt k)
| or_bare n : In n ["POP_VLAN"; "POP_PBB"; "DEC_NW_TTL"; "DEC_MPLS_TTL"; "COPY_TTL_OUT"; "COPY_TTL_IN"] -> ordinary (n, VNone)
| or_set f v : In f (map fst field_deps) -> ordinary ("SET_FIELD", VSet f v).
Definition ordinary_rule (r : rule) : Prop :=
  Forall ordinary (orig_order (apply_actions (inst (rcore r)))) /\ Forall ordinary (orig_order (write_actions (inst (rcore r)))).
Lemma ordinary_known a : ordinary a -> known a = true.
Proof.
  intros [n k H|n H|f v H].
  - cbn [In] in H. destruct H as [<-|[<-|[<-|[<-|[<-|[<-|[<-|[<-|[]]]]]]]]]; reflexivity.
  - cbn [In] in H. destruct H as [<-|[<-|[<-|[<-|[<-|[<-|[]]]]]]]; reflexivity.
  - pose proof known_set_all as K. rewrite forallb_forall in K. apply (K f H).
Qed.
Lemma compare_refl_eq s t : String.compare s t = Eq -> s = t.
Proof. apply String.compare_eq_iff. Qed.
Lemma ordinary_compat a b : ordinary a -> ordinary b -> compat a b.
Proof.
  intros Ha Hb. split; [now apply ordinary_known|]. split; [now apply ordinary_known|]. unfold comparable, act_cmp.
  destruct (String.compare (fst a) (fst b)) eqn:E; [|discriminate|discriminate]. apply String.compare_eq_iff in E.
  destruct Ha as [n k H|n H|f v H], Hb as [n' k' H'|n' H'|f' v' H']; cbn [fst snd] in *; subst; cbn [val_cmp]; try discriminate.
  - exfalso. cbn [In] in H, H'. intuition (subst; discriminate).
  - exfalso. cbn [In] in H. intuition discriminate.
  - exfalso. cbn [In] in H, H'. intuition (subst; discriminate).
  - exfalso. cbn [In] in H. intuition discriminate.
  - exfalso. cbn [In] in H'. intuition discriminate.
  - exfalso. cbn [In] in H'. intuition discriminate.
  - destruct (String.compare f f'); discriminate.
Qed.
Lemma ordinary_output v : ordinary ("OUTPUT", v) -> exists k, v = VInt k.
Proof. intros H. inversion H as [n k Q|n Q|]; subst; [eauto|]. exfalso. cbn [In] in Q. intuition discriminate. Qed.
Lemma ordinary_group v : ~ ordinary ("GROUP", v).
Proof. intros H. inversion H as [n k Q|n Q|]; subst; cbn [In] in Q; intuition discriminate. Qed.

(** Given files that load into well-formed rules with ordinary actions, 16-bit priorities and a rule in
    table 0, the command never raises an exception: it prints the usage for no name, nothing for one,
    and otherwise lines, which relate any two names as their single tables are related. The
    divide-and-conquer build also needs that a table with a rule of priority 0 is never missed, and
    the report that the rules come with empty paths. *)
Theorem C92_always_answers : forall SHIFT load o reg0 reg rulesets, 0 < SHIFT -> SHIFT mod 2 = 0 ->
  load_all load o reg0 = (reg, Ok rulesets) -> reg_ok reg ->
  (forall n A, In (n, A) rulesets -> Forall (good_rule reg true) A /\ Forall ordinary_rule A /\ (exists r, In r A /\ table (rcore r) = 0) /\
    (forall r, In r A -> priority (rcore r) < 2 ^ 16) /\
    (op_dc o = true \/ op_difference o = true -> total_tables A) /\ (op_difference o = true -> forall r, In r A -> path r = [])) ->
  exists reg' out, check_equivalence SHIFT load o reg0 = (reg', Ok out) /\
    match rulesets with
    | [] => out = Usage
    | [_] => out = Nothing
    | _ => exists lines ds, out = Lines lines ds /\ forall a A b B, In (a, A) rulesets -> In (b, B) rulesets ->
        exists ra ra' SA rb rb' SB, to_single_table (sort_ruleset A) true ra = (ra', Ok SA) /\ to_single_table (sort_ruleset B) true rb = (rb', Ok SB) /\
          (same_line lines a b <-> forall p x, prescribes SA p x <-> prescribes SB p x)
    end.
Proof.
  intros SHIFT load o reg0 reg rulesets Hs He L HR H.
  assert (HA : forall n A, In (n, A) rulesets -> answerable ordinary reg A /\ (op_dc o = true -> total_tables A)).
  { intros n A HnA. destruct (H n A HnA) as (H1 & H2 & H3 & H4 & H5 & _). split; [now constructor|auto]. }
  destruct (loop_total ordinary ordinary_compat ordinary_output ordinary_group SHIFT Hs He (op_dc o) rulesets reg (mkWork acts_init [] []) HR HA) as (r' & w & E & R' & _).
  { repeat constructor; intros []. }
  destruct rulesets as [|x [|y rest]].
  - exists reg, Usage. split; [|reflexivity]. unfold check_equivalence, sbind. now rewrite L.
  - exists r', Nothing. split; [|reflexivity]. unfold check_equivalence, sbind at 1. rewrite L. unfold compare_rulesets, sbind at 1. rewrite E. reflexivity.
  - destruct (C23_grouping_is_exact string (w_canon w)) as (gs & EG & _). set (rulesets := x :: y :: rest) in *.
    assert (E0 : check_equivalence SHIFT load (mkOptions (op_rulesets o) (op_format o) (op_dc o) false) reg0 = (r', Ok (Lines (map (map fst) gs) []))).
    { unfold check_equivalence, sbind at 1. change (load_all load (mkOptions (op_rulesets o) (op_format o) (op_dc o) false) reg0) with (load_all load o reg0).
      rewrite L. unfold rulesets at 1, compare_rulesets. fold rulesets. unfold sbind at 1. cbn [op_dc op_difference]. rewrite E. unfold sbind, slift, sret. now rewrite EG. }
    assert (E1 : exists ds, check_equivalence SHIFT load o reg0 = (r', Ok (Lines (map (map fst) gs) ds))).
    { destruct o as [names fmts dc dif]. cbn [op_rulesets op_format op_dc op_difference] in *. destruct dif; [|eauto].
      apply (C88_report_never_fails SHIFT load names fmts dc reg0 reg rulesets r' (map (map fst) gs) Hs He L HR); [|exact E0].
      intros n A HnA. destruct (H n A HnA) as (H1 & _ & _ & _ & H5 & H6). auto. }
    destruct E1 as (ds & E1). exists r', (Lines (map (map fst) gs) ds). split; [exact E1|]. exists (map (map fst) gs), ds. split; [reflexivity|].
    intros a A b B Ia Ib. destruct (C88_same_line_iff SHIFT load o reg0 reg rulesets r' _ ds Hs He L HR (fun n A HnA => proj1 (H n A HnA)) E1 a A b B Ia Ib)
      as (ra & ra' & SA & rb & rb' & SB & _ & _ & EA & _ & _ & EB & Q). exists ra, ra', SA, rb, rb', SB. auto.
Qed.

(** ** Examples and refuted claims *)
(** Two tables; DEC_NW_TTL, SET_FIELD and two outputs; a file that sends the same packets and one that does not. *)
Definition tt_rules (k : Z) : list rule :=
  [mk_r 10 0 [("ETH_TYPE", (0x800, None)); ("VLAN_VID", (5, None))] (mk_full [("DEC_NW_TTL", VNone); SETF "ETH_DST" 9] [] (Some 1) false None);
   mk_r 0 0 [] (mk_full [OUTPUT 4] [] None false None); mk_r 0 1 [] (mk_full [] [OUTPUT k] None false None)].
Definition tt_load (name fmt : string) : st (list rule) := sret (if String.eqb name "b" then tt_rules 2 else tt_rules 1).
Lemma tt_good k : In k [1; 2] -> Forall (good_rule registry_init true) (tt_rules k).
Proof. intros [<-|[<-|[]]]; (repeat apply Forall_cons; try apply Forall_nil; apply mk_good; vm_compute; reflexivity). Qed.
Lemma tt_ordinary k : In k [1; 2] -> Forall ordinary_rule (tt_rules k).
Proof.
  intros H. unfold tt_rules. repeat apply Forall_cons; try apply Forall_nil.
  - split; [|constructor]. match goal with |- Forall _ ?l => let l' := eval vm_compute in l in change l with l' end.
    repeat constructor; cbn; tauto.
  - split; [|constructor]. match goal with |- Forall _ ?l => let l' := eval vm_compute in l in change l with l' end. repeat constructor; cbn; tauto.
  - split; [constructor|]. destruct H as [<-|[<-|[]]]; match goal with |- Forall _ ?l => let l' := eval vm_compute in l in change l with l' end; repeat constructor; cbn; tauto.
Qed.
Lemma tt_total k : total_tables (tt_rules k).
Proof.
  intros r [<-|[<-|[<-|[]]]] P p; [discriminate P|..].
  - exists (nth 1 (tt_rules k) (r37 0 0)). split; [right; left; reflexivity|]. split; [reflexivity|]. now apply def_accepts.
  - exists (nth 2 (tt_rules k) (r37 0 0)). split; [right; right; left; reflexivity|]. split; [reflexivity|]. now apply def_accepts.
Qed.
Example C92_ex : let o := mkOptions ["a"; "b"; "c"] no_formats true true in
  load_all tt_load o registry_init = (registry_init, Ok [("a", tt_rules 1); ("b", tt_rules 2); ("c", tt_rules 1)]) /\
  (forall n A, In (n, A) [("a", tt_rules 1); ("b", tt_rules 2); ("c", tt_rules 1)] -> Forall (good_rule registry_init true) A /\ Forall ordinary_rule A /\ (exists r, In r A /\ table (rcore r) = 0) /\
    (forall r, In r A -> priority (rcore r) < 2 ^ 16) /\ (op_dc o = true \/ op_difference o = true -> total_tables A) /\ (op_difference o = true -> forall r, In r A -> path r = [])) /\
  exists reg' lines ds, check_equivalence 30 tt_load o registry_init = (reg', Ok (Lines lines ds)) /\ same_line lines "a" "c".
Proof.
  set (o := mkOptions ["a"; "b"; "c"] no_formats true true).
  assert (L : load_all tt_load o registry_init = (registry_init, Ok [("a", tt_rules 1); ("b", tt_rules 2); ("c", tt_rules 1)])) by reflexivity.
  assert (K : forall k, In k [1; 2] -> Forall (good_rule registry_init true) (tt_rules k) /\ Forall ordinary_rule (tt_rules k) /\ (exists r, In r (tt_rules k) /\ table (rcore r) = 0) /\
    (forall r, In r (tt_rules k) -> priority (rcore r) < 2 ^ 16) /\ (op_dc o = true \/ op_difference o = true -> total_tables (tt_rules k)) /\ (op_difference o = true -> forall r, In r (tt_rules k) -> path r = [])).
  { intros k Hk. split; [now apply tt_good|]. split; [now apply tt_ordinary|]. split; [eexists; split; [left; reflexivity|reflexivity]|].
    split; [intros r [<-|[<-|[<-|[]]]]; reflexivity|]. split; [intros _; apply tt_total|intros _ r [<-|[<-|[<-|[]]]]; reflexivity]. }
  assert (H : forall n A, In (n, A) [("a", tt_rules 1); ("b", tt_rules 2); ("c", tt_rules 1)] -> Forall (good_rule registry_init true) A /\ Forall ordinary_rule A /\ (exists r, In r A /\ table (rcore r) = 0) /\
    (forall r, In r A -> priority (rcore r) < 2 ^ 16) /\ (op_dc o = true \/ op_difference o = true -> total_tables A) /\ (op_difference o = true -> forall r, In r A -> path r = [])).
  { intros n A [[= <- <-]|[[= <- <-]|[[= <- <-]|[]]]]; apply K; cbn; tauto. }
  split; [exact L|]. split; [exact H|].
  destruct (C92_always_answers 30 tt_load o registry_init _ _ ltac:(lia) eq_refl L reg_init_ok H) as (reg' & out & E & lines & ds & -> & _).
  exists reg', lines, ds. split; [exact E|].
  apply (C91_equal_rules_same_line 30 tt_load o registry_init _ _ _ _ _ ltac:(lia) eq_refl L reg_init_ok (fun n A HnA => proj1 (H n A HnA)) E "a" (tt_rules 1) "c" (tt_rules 1));
    [cbn; tauto|cbn; tauto|apply tt_total|]. repeat constructor.
Qed.
(** Without the restriction to ordinary actions it is false: a packet that meets a group in table 0 and
    another in table 1 makes the command fail, as two groups are put in order and cannot be. *)
Definition to_group (k : Z) : action := ("GROUP", VGroup "all" [[OUTPUT k]]).
Definition two_groups : list rule :=
  [mk_r 0 0 [] (mk_full [to_group 1] [] (Some 1) false None); mk_r 0 1 [] (mk_full [to_group 2] [] None false None)].
Theorem C92_groups_refuted : exists rs, Forall (good_rule registry_init true) rs /\ total_tables rs /\ (forall r, In r rs -> 0 <= priority (rcore r) < 2 ^ 16 /\ path r = []) /\
  (exists r, In r rs /\ table (rcore r) = 0) /\ forall dc dif fmts, (forall f, fmts f = []) ->
  snd (check_equivalence 30 (fun _ _ => sret rs) (mkOptions ["a"; "b"] fmts dc dif) registry_init) = Err TypeError.
Proof.
  exists two_groups. split; [repeat apply Forall_cons; try apply Forall_nil; apply mk_good; vm_compute; reflexivity|]. split.
  { intros r [<-|[<-|[]]] _ p; [exists (nth 0 two_groups (r37 0 0))|exists (nth 1 two_groups (r37 0 0))]; (split; [cbn; tauto|]; split; [reflexivity|now apply def_accepts]). }
  split; [intros r [<-|[<-|[]]]; (split; [cbn; lia|reflexivity])|]. split; [eexists; split; [left; reflexivity|reflexivity]|].
  intros dc dif fmts HF. unfold check_equivalence, load_all, jobs, INPUT_FORMATS. cbn [op_rulesets op_format flat_map]. rewrite !HF. cbn [map app sfold fst snd].
  unfold load_into, sbind, sret. cbn [fst snd dict_set String.eqb Ascii.eqb Bool.eqb app]. unfold compare_rulesets, sbind. cbn [sfold op_dc op_difference]. unfold process, sbind. cbn [fst snd].
  assert (X : snd (to_single_table (sort_ruleset two_groups) true registry_init) = Err TypeError) by (vm_compute; reflexivity).
  destruct (to_single_table (sort_ruleset two_groups) true registry_init) as [r q]. cbn [snd] in X. subst q. reflexivity.
Qed.
(** The divide-and-conquer build fails where the plain one answers: a packet that misses everything leaves
    no rule for the single table. *)
Definition missed : list rule :=
  [mk_r 0 0 [("VLAN_VID", (1, None))] (mk_full [] [] (Some 1) false None); mk_r 0 1 [("VLAN_VID", (2, None))] (mk_full [OUTPUT 1] [] None false None)].
Theorem C92_dc_refuted : exists rs reg', Forall (good_rule registry_init true) rs /\ Forall ordinary_rule rs /\ (forall r, In r rs -> 0 <= priority (rcore r) < 2 ^ 16 /\ path r = []) /\
  (exists r, In r rs /\ table (rcore r) = 0) /\
  check_equivalence 30 (fun _ _ => sret rs) (mkOptions ["a"; "b"] no_formats false false) registry_init = (reg', Ok (Lines [["a"; "b"]] [])) /\
  snd (check_equivalence 30 (fun _ _ => sret rs) (mkOptions ["a"; "b"] no_formats true false) registry_init) = Err AssertionError.
Proof.
  assert (X : snd (to_single_table (sort_ruleset missed) true registry_init) = Ok [] /\ snd (to_single_table (sort_ruleset missed) true (fst (to_single_table (sort_ruleset missed) true registry_init))) = Ok []) by (vm_compute; auto).
  destruct (to_single_table (sort_ruleset missed) true registry_init) as [r q] eqn:E. cbn [fst snd] in X. destruct X as [-> X].
  destruct (to_single_table (sort_ruleset missed) true r) as [r' q'] eqn:E'. cbn [snd] in X. subst q'.
  exists missed, r'. split; [repeat apply Forall_cons; try apply Forall_nil; apply mk_good; vm_compute; reflexivity|].
  split; [repeat apply Forall_cons; try apply Forall_nil; (split; match goal with |- Forall _ ?l => let l' := eval vm_compute in l in change l with l' end; repeat constructor; cbn; tauto)|].
  split; [intros r0 [<-|[<-|[]]]; (split; [cbn; lia|reflexivity])|]. split; [eexists; split; [left; reflexivity|reflexivity]|].
  split; unfold check_equivalence, load_all, jobs, INPUT_FORMATS; cbn [op_rulesets op_format flat_map no_formats map app sfold fst snd];
    unfold load_into, sbind, sret; cbn [fst snd dict_set String.eqb Ascii.eqb Bool.eqb app]; unfold compare_rulesets, sbind; cbn [sfold op_dc op_difference]; unfold process, sbind; cbn [fst snd]; rewrite E.
  - unfold slift, sret. cbn [normalise_naive one_table rfold fst snd]. rewrite E'. cbn [fst snd w_canon w_acts w_single app dict_set String.eqb Ascii.eqb Bool.eqb]. 
    unfold group_equal. cbn [List.length group_loop]. destruct (add_eq_dec BK BK); [reflexivity|congruence].
  - reflexivity.
Qed.
(** And a file with no rule at all makes it fail. *)
Theorem C92_empty_file_fails : forall dc dif, snd (check_equivalence 30 (fun name _ => sret (if String.eqb name "b" then [] else send 1)) (mkOptions ["b"; "a"] no_formats dc dif) registry_init) = Err AssertionError.
Proof. intros dc dif. reflexivity. Qed.

Print Assumptions C92_always_answers.
Print Assumptions C92_ex.
Print Assumptions C92_groups_refuted.
Print Assumptions C92_dc_refuted.
Print Assumptions C92_empty_file_fails.
