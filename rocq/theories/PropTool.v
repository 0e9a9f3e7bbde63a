(** Theorems for C88: the command check_equivalence from end to end. *)
From Coq Require Import Permutation Sorted Lia.
From Verif Require Import Tool SpecTool ToolProofs MatchProofs NormaliseProofs MergeProofs EagerProofs SingleTableProofs PriorityProofs PathProofs
  ActionSetProofs ActionProofs InstProofs ExecProofs PerOutputProofs PropNormalise PropMerge PropSingle.
Local Open Scope string_scope.
Local Open Scope list_scope.
Local Open Scope Z_scope.

(** ** C88 *)
(** The files loaded, with their formats, are those asked for. *)
Theorem C88_files_loaded : forall o f fmt, In (f, fmt) (jobs o) <-> asked (op_rulesets o) (op_format o) f fmt.
Proof.
  intros o f fmt. unfold jobs, asked. rewrite in_app_iff, in_map_iff, in_flat_map. split.
  - intros [(x & [= -> <-] & H)|(g & G & H)]; [auto|]. apply in_map_iff in H as (x & [= -> ->] & H). right. split; [exact G|exact H].
  - intros [[-> H]|[G H]]; [left; eauto|]. right. exists fmt. split; [exact G|]. apply in_map_iff. eauto.
Qed.
(** Every name on the command line is printed exactly once, no line is empty, and lines are only
    printed when there are two names to compare. Holds of any rules and any loader. *)
Theorem C88_every_name_once : forall SHIFT load o reg0 reg' lines ds, check_equivalence SHIFT load o reg0 = (reg', Ok (Lines lines ds)) ->
  NoDup (List.concat lines) /\ (forall n, In n (List.concat lines) <-> exists fmt, asked (op_rulesets o) (op_format o) n fmt) /\ ~ In [] lines /\ (2 <= List.length (List.concat lines))%nat.
Proof.
  intros SHIFT load o reg0 reg' lines ds E. destruct (tool_load _ _ _ _ _ _ E) as (reg & rulesets & L). destruct (load_names _ _ _ _ _ L) as [N1 N2].
  apply (tool_run _ _ _ _ _ _ _ _ L) in E. apply compare_run in E as (w & gs & P & G & -> & _ & x & y & rest & R).
  assert (M := process_names _ _ _ _ _ _ _ P). cbn [w_canon map app] in M. destruct (group_facts _ _ G) as (Pm & NE & _).
  rewrite concat_map_map. assert (Q : Permutation (map fst (List.concat gs)) (map fst rulesets)) by (rewrite <- M; apply Permutation_map; now symmetry).
  split; [eapply Permutation_NoDup; [symmetry; exact Q|exact N1]|]. split.
  - intros n. transitivity (In n (map fst (jobs o))); [rewrite <- N2; split; apply Permutation_in; [exact Q|now symmetry]|]. rewrite in_map_iff. split.
    + intros ([f fmt] & <- & H). apply C88_files_loaded in H. eauto.
    + intros (fmt & H). exists (n, fmt). split; [reflexivity|]. now apply C88_files_loaded.
  - split.
    + intros I. apply in_map_iff in I as (g & X & Hg). apply (NE g Hg). now destruct g.
    + rewrite (Permutation_length Q), R. cbn [map List.length]. lia.
Qed.
(** What is compared under a name is what the last load of that name returned: positional
    arguments first, then the options in the order of INPUT_FORMATS. *)
Theorem C88_last_load : forall load o reg0 reg rulesets j1 f fmt j2, load_all load o reg0 = (reg, Ok rulesets) ->
  jobs o = j1 ++ (f, fmt) :: j2 -> ~ In f (map fst j2) -> exists r1 r2 rs, load f fmt r1 = (r2, Ok rs) /\ In (f, rs) rulesets.
Proof.
  intros load o reg0 reg rulesets j1 f fmt j2 L J H. unfold load_all in L. rewrite J in L.
  destruct (load_last _ _ _ _ _ _ _ _ _ L (NoDup_nil _) H) as (r1 & r2 & rs & A & B). exists r1, r2, rs. split; [exact A|]. now apply dict_get_in.
Qed.
(** So an option overrides a bare name, and of several options the last in the list of formats. *)
Theorem C88_which_format : forall load o reg0 reg rulesets f, load_all load o reg0 = (reg, Ok rulesets) ->
  (forall l1 fmt l2, ["auto"; "ryu_pickle"; "ryu_json"; "pickle"; "ovs"; "fib"] = l1 ++ fmt :: l2 -> In f (op_format o fmt) -> (forall g, In g l2 -> ~ In f (op_format o g)) ->
    exists r1 r2 rs, load f fmt r1 = (r2, Ok rs) /\ In (f, rs) rulesets) /\
  (In f (op_rulesets o) -> (forall fmt, ~ In f (op_format o fmt)) -> exists r1 r2 rs, load f "auto" r1 = (r2, Ok rs) /\ In (f, rs) rulesets).
Proof.
  intros load o reg0 reg rulesets f L.
  assert (LS : forall l : list string, In f l -> exists a b, l = a ++ f :: b /\ ~ In f b).
  { induction l as [|x l IH]; intros H; [destruct H|]. destruct (in_dec string_dec f l) as [I|N]; [destruct (IH I) as (a & b & -> & N); exists (x :: a), b; auto|].
    destruct H as [->|H]; [exists [], l; auto|contradiction]. }
  assert (NF : forall l, (forall g, In g l -> ~ In f (op_format o g)) -> ~ In f (map fst (flat_map (fun fmt => map (fun f => (f, fmt)) (op_format o fmt)) l))).
  { intros l H I. apply in_map_iff in I as ([x y] & E & I). cbn [fst] in E. subst x. apply in_flat_map in I as (g & G & I). apply in_map_iff in I as (z & [= -> ->] & I). exact (H y G I). }
  assert (MF : forall (l : list string) (fmt : string), map fst (map (fun f => (f, fmt)) l) = l) by (intros l fmt; rewrite map_map; apply map_id).
  split.
  - intros l1 fmt l2 E I N. destruct (LS _ I) as (a & b & Ea & Nb).
    apply (C88_last_load load o reg0 reg rulesets ((map (fun f => (f, "auto")) (op_rulesets o) ++ flat_map (fun fmt => map (fun f => (f, fmt)) (op_format o fmt)) l1) ++ map (fun f => (f, fmt)) a) f fmt
      (map (fun f => (f, fmt)) b ++ flat_map (fun fmt => map (fun f => (f, fmt)) (op_format o fmt)) l2) L).
    { unfold jobs. change INPUT_FORMATS with ["auto"; "ryu_pickle"; "ryu_json"; "pickle"; "ovs"; "fib"]. rewrite E, flat_map_app. cbn [flat_map]. rewrite Ea, map_app. cbn [map].
      rewrite <- !app_assoc. reflexivity. }
    rewrite map_app, MF, in_app_iff. intros [X|X]; [contradiction|]. exact (NF l2 N X).
  - intros I N. destruct (LS _ I) as (a & b & Ea & Nb).
    apply (C88_last_load load o reg0 reg rulesets (map (fun f => (f, "auto")) a) f "auto" (map (fun f => (f, "auto")) b ++ flat_map (fun fmt => map (fun f => (f, fmt)) (op_format o fmt)) INPUT_FORMATS) L).
    { unfold jobs. rewrite Ea, map_app, <- app_assoc. reflexivity. }
    rewrite map_app, MF, in_app_iff. intros [X|X]; [contradiction|]. exact (NF _ (fun g _ => N g) X).
Qed.
(** Two names are on the same line iff the single tables of their rulesets prescribe the same
    for every packet, however many rulesets are compared and with either normaliser. *)
Theorem C88_same_line_iff : forall SHIFT load o reg0 reg rulesets reg' lines ds, 0 < SHIFT -> SHIFT mod 2 = 0 ->
  load_all load o reg0 = (reg, Ok rulesets) -> reg_ok reg -> (forall n A, In (n, A) rulesets -> Forall (good_rule reg true) A) ->
  check_equivalence SHIFT load o reg0 = (reg', Ok (Lines lines ds)) ->
  forall a A b B, In (a, A) rulesets -> In (b, B) rulesets ->
  exists ra ra' SA rb rb' SB, rle reg ra /\ reg_ok ra /\ to_single_table (sort_ruleset A) true ra = (ra', Ok SA) /\
    rle reg rb /\ reg_ok rb /\ to_single_table (sort_ruleset B) true rb = (rb', Ok SB) /\
    (same_line lines a b <-> forall p x, prescribes SA p x <-> prescribes SB p x).
Proof.
  intros SHIFT load o reg0 reg rulesets reg' lines ds Hs He L HR HG E a A b B HA HB. destruct (load_names _ _ _ _ _ L) as [N1 _].
  apply (tool_run _ _ _ _ _ _ _ _ L) in E. apply compare_run in E as (w & gs & P & G & -> & _).
  destruct (run_known _ _ _ _ _ _ Hs He HR N1 (fun na H => HG (fst na) (snd na) ltac:(now destruct na)) P) as (ND & _ & F).
  destruct (forall2_find _ _ _ _ F HA) as ([a' ba] & Ia & [Ka (ra & ra' & SA & f & A1 & A2 & A3 & _ & _ & _ & _ & _ & Fa & Pa)]).
  destruct (forall2_find _ _ _ _ F HB) as ([b' bb] & Ib & [Kb (rb & rb' & SB & g & B1 & B2 & B3 & _ & _ & _ & _ & _ & Fb & Pb)]).
  cbn [fst snd] in *. subst a' b'. exists ra, ra', SA, rb, rb', SB. do 6 (split; [assumption|]).
  rewrite <- (sem_equal (w_acts w) ba bb f g SA SB ND Fa Fb Pa Pb). apply (same_line_iff (w_canon w) gs (a, ba) (b, bb)); auto.
  rewrite <- (known_names _ _ _ _ _ _ F). exact N1.
Qed.
(** Rulesets on the same line forward every packet alike: the same copies on the same ports,
    provided the actions executed on it are plain (known to C30) and output to a port once. *)
Theorem C88_same_line_same_forwarding : forall SHIFT load o reg0 reg rulesets reg' lines ds, 0 < SHIFT -> SHIFT mod 2 = 0 ->
  load_all load o reg0 = (reg, Ok rulesets) -> reg_ok reg -> (forall n A, In (n, A) rulesets -> Forall (good_rule reg true) A) ->
  check_equivalence SHIFT load o reg0 = (reg', Ok (Lines lines ds)) ->
  forall a A b B, In (a, A) rulesets -> In (b, B) rulesets -> total_tables A -> total_tables B -> same_line lines a b ->
  forall pick p xs ys, executes false A p xs -> executes false B p ys ->
  Forall wf_act xs -> Forall wf_act ys -> NoDup (ports xs) -> NoDup (ports ys) ->
  forall q, same_outs (run_out pick xs q) (run_out pick ys q).
Proof.
  intros SHIFT load o reg0 reg rulesets reg' lines ds Hs He L HR HG E a A b B HA HB TA TB SL pick p xs ys XA XB WX WY NX NY. destruct (load_names _ _ _ _ _ L) as [N1 _].
  apply (tool_run _ _ _ _ _ _ _ _ L) in E. apply compare_run in E as (w & gs & P & G & -> & _).
  destruct (run_known _ _ _ _ _ _ Hs He HR N1 (fun na H => HG (fst na) (snd na) ltac:(now destruct na)) P) as (ND & _ & F).
  destruct (forall2_find _ _ _ _ F HA) as ([a' ba] & Ia & [Ka (ra & ra' & SA & f & A1 & A2 & A3 & _ & _ & _ & _ & OA & Fa & Pa)]).
  destruct (forall2_find _ _ _ _ F HB) as ([b' bb] & Ib & [Kb (rb & rb' & SB & g & B1 & B2 & B3 & _ & _ & _ & _ & OB & Fb & Pb)]).
  cbn [fst snd] in *. subst a' b'.
  assert (D : forall p x, prescribes SA p x <-> prescribes SB p x).
  { apply (sem_equal (w_acts w) ba bb f g SA SB ND Fa Fb Pa Pb). apply (same_line_iff (w_canon w) gs (a, ba) (b, bb)); auto.
    rewrite <- (known_names _ _ _ _ _ _ F). exact N1. }
  assert (GA : Forall (good_rule ra true) (sort_ruleset A)) by (apply sort_good, (good_rules_mono reg); eauto).
  assert (GB : Forall (good_rule rb true) (sort_ruleset B)) by (apply sort_good, (good_rules_mono reg); eauto).
  destruct (single_table_ok _ _ _ _ _ A2 GA (sort_total _ TA) A3 p) as (rA & MA & _ & SemA).
  destruct (single_table_ok _ _ _ _ _ B2 GB (sort_total _ TB) B3 p) as (rB & MB & _ & SemB).
  rewrite <- sort_executes in XA, XB.
  destruct (rule_actions rA) as [d|e] eqn:Ed; [|assert (X := OA rA (proj1 (NormaliseProofs.first_match_in _ _ _ MA))); rewrite Ed in X; discriminate X].
  assert (Q : prescribes SA p (Some d)) by (right; exists rA, d; auto). apply D in Q as [[_ X]|(rB' & d' & F' & E' & X)]; [discriminate X|].
  injection X as <-. assert (Y := first_match_unique _ _ _ _ MB F'). injection Y as <-.
  unfold rule_actions in Ed, E'. destruct (full_actions (inst (rcore rA))) as [la|] eqn:LA; [|discriminate Ed].
  destruct (full_actions (inst (rcore rB))) as [lb|] eqn:LB; [|discriminate E']. cbn [rbind] in Ed, E'.
  eapply (per_output_teq_eq pick xs ys la lb d d); eauto. reflexivity.
Qed.
(** The report of -D names each line's first ruleset with the first of the next line. When no
    two rules of one table and priority match a common packet, it relates exactly the paths that the differing packets take
    through the two pipelines. *)
Theorem C88_report_partial : forall SHIFT load o reg0 reg rulesets reg' lines ds, 0 < SHIFT -> SHIFT mod 2 = 0 ->
  load_all load o reg0 = (reg, Ok rulesets) -> reg_ok reg ->
  (forall n A, In (n, A) rulesets -> Forall (good_rule reg true) A /\ total_tables A /\ (forall r, In r A -> path r = [])) ->
  check_equivalence SHIFT load o reg0 = (reg', Ok (Lines lines ds)) -> op_difference o = true ->
  map fst ds = consecutive lines /\
  forall a b res, In (a, b, res) ds -> exists A B ra ra' SA rb rb' SB, In (a, A) rulesets /\ In (b, B) rulesets /\
    to_single_table (sort_ruleset A) true ra = (ra', Ok SA) /\ to_single_table (sort_ruleset B) true rb = (rb', Ok SB) /\
    (ForallOrdPairs (no_tie overlap) A -> ForallOrdPairs (no_tie overlap) B ->
      (forall P Q, related res P Q -> exists p, unlike SA SB p /\ takes A p P /\ takes B p Q) /\
      (forall p, unlike SA SB p -> exists P Q, related res P Q /\ takes A p P /\ takes B p Q)).
Proof.
  intros SHIFT load o reg0 reg rulesets reg' lines ds Hs He L HR HG E OD. destruct (load_names _ _ _ _ _ L) as [N1 _].
  apply (tool_run _ _ _ _ _ _ _ _ L) in E. apply compare_run in E as (w & gs & P & G & -> & D & _). rewrite OD in D.
  destruct (run_known _ _ _ _ _ _ Hs He HR N1 (fun na H => proj1 (HG (fst na) (snd na) ltac:(now destruct na))) P) as (ND & HD & F).
  destruct (group_facts _ _ G) as (_ & NE & IG).
  assert (KF : forall g nb, In g gs -> In nb g -> exists na, traced reg reg' (w_acts w) (w_single w) na nb /\ fit reg na).
  { intros g nb Hg Hb. destruct (forall2_find_r _ _ _ _ F (IG g nb Hg Hb)) as (na & Ia & K). exists na. split; [exact K|]. apply (HG (fst na) (snd na)). now destruct na. }
  assert (KI : forall g nb, In g gs -> In nb g -> exists na, In na rulesets /\ traced reg reg' (w_acts w) (w_single w) na nb).
  { intros g nb Hg Hb. apply (forall2_find_r _ _ _ _ F (IG g nb Hg Hb)). }
  destruct (differences_ok SHIFT Hs He reg reg' (w_acts w) (w_single w) ND HD gs NE KF) as (ds' & D' & M & R). rewrite D in D'. injection D' as <-.
  split; [exact M|]. intros a b res I. assert (CI : In (a, b) (consecutive (map (map fst) gs))) by (rewrite <- M; apply (in_map fst _ _ I)).
  assert (NM : forall n, In n (List.concat (map (map fst) gs)) -> exists A, In (n, A) rulesets).
  { intros n Hn. rewrite concat_map_map in Hn. apply in_map_iff in Hn as (nb & <- & Hb). apply in_concat in Hb as (g & Hg & Hb).
    destruct (KI g nb Hg Hb) as ([n A] & Ina & K). exists A. rewrite <- (k_name _ _ _ _ _ _ K). exact Ina. }
  assert (CC : forall l a b, In (a, b) (consecutive l) -> In a (List.concat l) /\ In b (List.concat l)).
  { clear. induction l as [|x l IH]; intros a b H; [destruct H|]. destruct x as [|c x]; [destruct H|]. destruct l as [|[|d y] l]; try destruct H.
    - injection H as <- <-. cbn [List.concat app]. split; [now left|]. right. apply in_or_app. right. now left.
    - destruct (IH _ _ H) as [X Y]. cbn [List.concat] in X, Y |- *. split; apply in_or_app; now right. }
  destruct (CC _ _ _ CI) as [Ca Cb]. destruct (NM a Ca) as (A & HA). destruct (NM b Cb) as (B & HB).
  destruct (R a b res I) as (na & na' & _ & _ & Ea & Eb & _ & _ & (SA & SB & GA & GB & _ & X)). subst a b.
  destruct (forall2_find _ _ _ _ F HA) as ([a' ba] & Ia & [Ka (ra & ra' & SA' & f & A1 & A2 & A3 & A4 & _ & OA & TA & _ & Fa & Pa)]).
  destruct (forall2_find _ _ _ _ F HB) as ([b' bb] & Ib & [Kb (rb & rb' & SB' & g & B1 & B2 & B3 & B4 & _ & OB & TB & _ & Fb & Pb)]).
  cbn [fst snd] in *. rewrite GA in A4. injection A4 as <-. rewrite GB in B4. injection B4 as <-.
  exists A, B, ra, ra', SA, rb, rb', SB. split; [exact HA|]. split; [exact HB|]. split; [exact A3|]. split; [exact B3|]. intros NA NB'.
  destruct (HG _ _ HA) as (G1 & V1 & Z1). destruct (HG _ _ HB) as (G2 & V2 & Z2).
  assert (G1' : Forall (good_rule ra true) (sort_ruleset A)) by (apply sort_good, (good_rules_mono reg); eauto).
  assert (G2' : Forall (good_rule rb true) (sort_ruleset B)) by (apply sort_good, (good_rules_mono reg); eauto).
  destruct (C40_priority_order_partial _ _ _ _ _ A2 G1' (sort_no_tie _ NA) A3) as [_ SA1]. destruct (C40_priority_order_partial _ _ _ _ _ B2 G2' (sort_no_tie _ NB') B3) as [_ SB1].
  assert (VA : forall p c, first_match SA p (Some c) -> takes A p (path c)).
  { intros p c Fc. destruct (single_visits _ _ _ _ _ A2 G1' (sort_total _ V1) (fun c Hc => Z1 c (proj1 (in_sort _ _) Hc)) A3 p c Fc) as (route & cs & extra & V & Rt & Pc & Ex).
    exists route, cs, extra. rewrite sort_visits in V. auto. }
  assert (VB : forall p c, first_match SB p (Some c) -> takes B p (path c)).
  { intros p c Fc. destruct (single_visits _ _ _ _ _ B2 G2' (sort_total _ V2) (fun c Hc => Z2 c (proj1 (in_sort _ _) Hc)) B3 p c Fc) as (route & cs & extra & V & Rt & Pc & Ex).
    exists route, cs, extra. rewrite sort_visits in V. auto. }
  split.
  - intros P0 Q H. apply X in H as (p & c & c' & U & F1 & F2 & -> & ->). apply SA1 in F1. apply SB1 in F2. exists p. auto.
  - intros p U. destruct (single_table_ok _ _ _ _ _ A2 G1' (sort_total _ V1) A3 p) as (c & Fc & _). destruct (single_table_ok _ _ _ _ _ B2 G2' (sort_total _ V2) B3 p) as (c' & Fc' & _).
    exists (path c), (path c'). split; [|auto]. apply X. exists p, c, c'. rewrite <- SA1, <- SB1. auto.
Qed.
(** Asking for the report never makes the command fail and does not change the lines. *)
Theorem C88_report_never_fails : forall SHIFT load names fmts dc reg0 reg rulesets reg' lines, 0 < SHIFT -> SHIFT mod 2 = 0 ->
  load_all load (mkOptions names fmts dc false) reg0 = (reg, Ok rulesets) -> reg_ok reg ->
  (forall n A, In (n, A) rulesets -> Forall (good_rule reg true) A /\ total_tables A /\ (forall r, In r A -> path r = [])) ->
  check_equivalence SHIFT load (mkOptions names fmts dc false) reg0 = (reg', Ok (Lines lines [])) ->
  exists ds, check_equivalence SHIFT load (mkOptions names fmts dc true) reg0 = (reg', Ok (Lines lines ds)).
Proof.
  intros SHIFT load names fmts dc reg0 reg rulesets reg' lines Hs He L HR HG E. destruct (load_names _ _ _ _ _ L) as [N1 _].
  apply (tool_run _ _ _ _ _ _ _ _ L) in E. apply compare_run in E as (w & gs & P & G & -> & _ & x & y & rest & ->). cbn [op_dc] in P.
  destruct (run_known _ _ _ _ _ _ Hs He HR N1 (fun na H => proj1 (HG (fst na) (snd na) ltac:(now destruct na))) P) as (ND & HD & F).
  destruct (group_facts _ _ G) as (_ & NE & IG).
  assert (KF : forall g nb, In g gs -> In nb g -> exists na, traced reg reg' (w_acts w) (w_single w) na nb /\ fit reg na).
  { intros g nb Hg Hb. destruct (forall2_find_r _ _ _ _ F (IG g nb Hg Hb)) as (na & Ia & K). exists na. split; [exact K|]. apply (HG (fst na) (snd na)). now destruct na. }
  destruct (differences_ok SHIFT Hs He reg reg' (w_acts w) (w_single w) ND HD gs NE KF) as (ds' & D' & _ & _). exists ds'.
  unfold check_equivalence, sbind at 1. change (load_all load (mkOptions names fmts dc true) reg0) with (load_all load (mkOptions names fmts dc false) reg0). rewrite L.
  unfold compare_rulesets, sbind at 1. cbn [op_dc op_difference]. rewrite P. unfold sbind, slift, sret. rewrite G, D'. reflexivity.
Qed.

(** ** Examples and refuted claims *)
(** A loader of rulesets with one rule that outputs every packet to a port; the file x holds text that
    two formats read differently. *)
Definition send (k : Z) : list rule := [mk_r 0 0 [] (mk_full [OUTPUT k] [] None false None)].
Definition ex_load (name fmt : string) : st (list rule) := sret
  (if String.eqb name "a" then send 1 else if String.eqb name "b" then send 2 else if String.eqb name "c" then send 3 else if String.eqb name "d" then send 1
   else if String.eqb fmt "ovs" then send 1 else send 2).
Definition sent (k : Z) : list rule := match snd (to_single_table (sort_ruleset (send k)) true registry_init) with Ok s => s | Err _ => [] end.
Lemma send_good k : In k [1; 2; 3] -> Forall (good_rule registry_init true) (send k).
Proof. intros [<-|[<-|[<-|[]]]]; (constructor; [apply mk_good; vm_compute; reflexivity|constructor]). Qed.
Lemma send_total k : total_tables (send k).
Proof. intros r [<-|[]] _ p. eexists. split; [now left|]. split; [reflexivity|]. now apply def_accepts. Qed.
Lemma send_path k r : In r (send k) -> path r = [].
Proof. intros [<-|[]]. reflexivity. Qed.
Lemma send_single k r : In k [1; 2; 3] -> to_single_table (sort_ruleset (send k)) true r = (r, Ok (sent k)).
Proof. intros [<-|[<-|[<-|[]]]]; vm_compute; reflexivity. Qed.
Lemma sent_shape k : In k [1; 2; 3] -> exists c, sent k = [c] /\ m_items (rmatch (rcore c)) = [] /\ rule_actions c = Ok [(k, [OUTPUT k])].
Proof. intros [<-|[<-|[<-|[]]]]; (eexists; split; [vm_compute; reflexivity|split; vm_compute; reflexivity]). Qed.
Lemma sent_prescribes k p : In k [1; 2; 3] -> prescribes (sent k) p (Some [(k, [OUTPUT k])]).
Proof. intros H. destruct (sent_shape k H) as (c & -> & M & A). right. exists c, [(k, [OUTPUT k])]. split; [constructor; now apply def_accepts|]. auto. Qed.
Lemma send_executes k p : In k [1; 2; 3] -> executes false (send k) p [OUTPUT k].
Proof.
  intros H. assert (S0 := set_inv_list _ _ (as_of_inv [] _ eq_refl)). exists false, [OUTPUT k], [], []. split; [|split; [exact S0|reflexivity]].
  destruct H as [<-|[<-|[<-|[]]]]; [(apply (pl_stop (send 1) 0 p [] [] (nth 0 (send 1) (r37 0 0))); [|reflexivity]; exists [], []; split; [reflexivity|]; split; [reflexivity|]; split; [now apply def_accepts|split; intros x []])|
  (apply (pl_stop (send 2) 0 p [] [] (nth 0 (send 2) (r37 0 0))); [|reflexivity]; exists [], []; split; [reflexivity|]; split; [reflexivity|]; split; [now apply def_accepts|split; intros x []])|
  (apply (pl_stop (send 3) 0 p [] [] (nth 0 (send 3) (r37 0 0))); [|reflexivity]; exists [], []; split; [reflexivity|]; split; [reflexivity|]; split; [now apply def_accepts|split; intros x []])].
Qed.
Lemma send_process n k w : In k [1; 2; 3] -> exists w', process 30 false w (n, send k) registry_init = (registry_init, Ok w').
Proof.
  intros H. unfold process, sbind, slift, sret. cbn [fst snd]. rewrite (send_single k registry_init H).
  assert (E := send_single k registry_init H). assert (G := sort_good _ _ _ (send_good k H)). destruct (single_tables _ _ _ _ _ reg_init_ok G E) as (_ & Gs & _).
  destruct (norm_total 30 registry_init (w_acts w) (sent k)) as (a & b & Q).
  - intros c Hc. unfold goods in Gs. rewrite Forall_forall in Gs. apply (Gs c Hc).
  - intros c Hc. destruct (sent_shape k H) as (c0 & E0 & _ & A0). rewrite E0 in Hc. destruct Hc as [<-|[]]. now rewrite A0.
  - destruct (sent_shape k H) as (c0 & -> & _). reflexivity.
  - rewrite Q. eauto.
Qed.
Lemma send_loop l : Forall (fun na => exists k, In k [1; 2; 3] /\ snd na = send k) l -> forall w, exists w', sfold (process 30 false) l w registry_init = (registry_init, Ok w').
Proof.
  induction 1 as [|[n A] l (k & K & E) F IH]; intros w; [eexists; reflexivity|]. cbn [snd] in E. subst A. cbn [sfold]. unfold sbind at 1.
  destruct (send_process n k w K) as (w1 & ->). apply IH.
Qed.
Lemma send_run x y rest : Forall (fun na => exists k, In k [1; 2; 3] /\ snd na = send k) (x :: y :: rest) ->
  forall names fmts, load_all ex_load (mkOptions names fmts false false) registry_init = (registry_init, Ok (x :: y :: rest)) ->
  exists lines, check_equivalence 30 ex_load (mkOptions names fmts false false) registry_init = (registry_init, Ok (Lines lines [])).
Proof.
  intros F names fmts L. unfold check_equivalence, sbind at 1. rewrite L. unfold compare_rulesets, sbind at 1. cbn [op_dc op_difference].
  destruct (send_loop _ F (mkWork acts_init [] [])) as (w & ->). unfold sbind, slift, sret.
  destruct (C23_grouping_is_exact string (w_canon w)) as (gs & -> & _). eauto.
Qed.
Lemma send_lines o rulesets lines ds : load_all ex_load o registry_init = (registry_init, Ok rulesets) ->
  (forall n A, In (n, A) rulesets -> Forall (good_rule registry_init true) A) ->
  check_equivalence 30 ex_load o registry_init = (registry_init, Ok (Lines lines ds)) ->
  forall a b j k, In (a, send j) rulesets -> In (b, send k) rulesets -> In j [1; 2; 3] -> In k [1; 2; 3] -> (same_line lines a b <-> j = k).
Proof.
  intros L F E a b j k Ha Hb Hj Hk.
  destruct (C88_same_line_iff 30 ex_load _ _ _ _ _ _ _ ltac:(lia) eq_refl L reg_init_ok F E a _ b _ Ha Hb) as (ra & ra' & SA & rb & rb' & SB & _ & _ & EA & _ & _ & EB & ->).
  rewrite send_single in EA, EB by auto. injection EA as _ <-. injection EB as _ <-. split; [|intros ->; reflexivity].
  intros H. assert (X := proj1 (H zeros _) (sent_prescribes j zeros Hj)). assert (Y := prescribes_unique _ _ _ _ X (sent_prescribes k zeros Hk)). congruence.
Qed.
Lemma singletons (l : list (list string)) : NoDup (List.concat l) -> ~ In [] l -> (forall g a b, In g l -> In a g -> In b g -> a = b) -> l = map (fun n => [n]) (List.concat l).
Proof.
  induction l as [|g l IH]; intros N E H; [reflexivity|]. cbn [List.concat] in *. destruct g as [|a [|b g]].
  - destruct E. now left.
  - cbn [app map]. f_equal. cbn [app] in N. inversion N; subst. apply IH; auto; [intros X; apply E; now right|]. intros g x y Hg. apply (H g). now right.
  - exfalso. cbn [app] in N. inversion N as [|? ? X _]; subst. apply X. left. apply (H (a :: b :: g)); cbn; auto.
Qed.
Definition no_formats (f : string) : list string := [].
Lemma abc_ok : Forall (fun na : string * list rule => exists k, In k [1; 2; 3] /\ snd na = send k) [("a", send 1); ("b", send 2); ("c", send 3); ("d", send 1)].
Proof. repeat (constructor; [eexists; split; [|reflexivity]; cbn; tauto|]). constructor. Qed.
Lemma ex_fit n A : In (n, A) [("a", send 1); ("b", send 2); ("c", send 3); ("d", send 1)] ->
  Forall (good_rule registry_init true) A /\ total_tables A /\ (forall r, In r A -> path r = []).
Proof. intros [[= <- <-]|[[= <- <-]|[[= <- <-]|[[= <- <-]|[]]]]]; (split; [apply send_good; cbn; tauto|split; [apply send_total|apply send_path]]). Qed.
Example C88_ex : load_all ex_load (mkOptions ["a"; "b"; "c"; "d"] no_formats false false) registry_init = (registry_init, Ok [("a", send 1); ("b", send 2); ("c", send 3); ("d", send 1)]) /\
  reg_ok registry_init /\
  (forall n A, In (n, A) [("a", send 1); ("b", send 2); ("c", send 3); ("d", send 1)] -> Forall (good_rule registry_init true) A /\ total_tables A /\ (forall r, In r A -> path r = [])) /\
  exists lines, check_equivalence 30 ex_load (mkOptions ["a"; "b"; "c"; "d"] no_formats false false) registry_init = (registry_init, Ok (Lines lines [])) /\
    same_line lines "a" "d" /\ ~ same_line lines "a" "b".
Proof.
  assert (L : load_all ex_load (mkOptions ["a"; "b"; "c"; "d"] no_formats false false) registry_init = (registry_init, Ok [("a", send 1); ("b", send 2); ("c", send 3); ("d", send 1)])) by reflexivity.
  split; [exact L|]. split; [exact reg_init_ok|]. split; [exact ex_fit|]. destruct (send_run _ _ _ abc_ok _ _ L) as (lines & E). exists lines. split; [exact E|].
  assert (Iff : forall a b j k, In (a, send j) [("a", send 1); ("b", send 2); ("c", send 3); ("d", send 1)] -> In (b, send k) [("a", send 1); ("b", send 2); ("c", send 3); ("d", send 1)] ->
    In j [1; 2; 3] -> In k [1; 2; 3] -> (same_line lines a b <-> j = k)) by exact (send_lines _ _ _ _ L (fun n A H => proj1 (ex_fit n A H)) E).
  split; [apply (Iff "a" "d" 1 1); cbn; tauto|]. rewrite (Iff "a" "b" 1 2) by (cbn; tauto). lia.
Qed.
(** Full claim of the help text of -D: the difference between the first and each differing
    ruleset. With three lines the first is never compared with the third. *)
Theorem C88_first_against_each_refuted : exists x y z ds, check_equivalence 30 ex_load (mkOptions ["a"; "b"; "c"] no_formats false true) registry_init =
  (registry_init, Ok (Lines [[x]; [y]; [z]] ds)) /\ NoDup [x; y; z] /\ forall d, In d ds -> fst d <> (x, z).
Proof.
  assert (L : load_all ex_load (mkOptions ["a"; "b"; "c"] no_formats false false) registry_init = (registry_init, Ok [("a", send 1); ("b", send 2); ("c", send 3)])) by reflexivity.
  assert (Fit : forall n A, In (n, A) [("a", send 1); ("b", send 2); ("c", send 3)] -> Forall (good_rule registry_init true) A /\ total_tables A /\ (forall r, In r A -> path r = [])).
  { intros n A H. apply (ex_fit n A). cbn in H |- *. tauto. }
  destruct (send_run ("a", send 1) ("b", send 2) [("c", send 3)] ltac:(assert (X := abc_ok); inversion X as [|? ? Q1 X1]; inversion X1 as [|? ? Q2 X2]; inversion X2 as [|? ? Q3 X3]; subst; repeat constructor; assumption) _ _ L) as (lines & E).
  assert (Iff := send_lines _ _ _ _ L (fun n A H => proj1 (Fit n A H)) E).
  destruct (C88_every_name_once _ _ _ _ _ _ _ E) as (ND & Nm0 & NE & _).
  assert (Nm : forall n, In n (List.concat lines) <-> In n ["a"; "b"; "c"]).
  { intros n. rewrite Nm0. cbn [op_rulesets op_format no_formats asked]. unfold asked. split; [intros (f & [[_ H]|[_ []]]); exact H|intros H; exists "auto"; auto]. }
  assert (Sg : lines = map (fun n => [n]) (List.concat lines)).
  { apply singletons; [exact ND|exact NE|]. intros l a b Hl Ha Hb. 
    assert (Ia : In a ["a"; "b"; "c"]) by (apply Nm, in_concat; eauto). assert (Ib : In b ["a"; "b"; "c"]) by (apply Nm, in_concat; eauto).
    assert (SL : same_line lines a b) by (exists l; auto).
    destruct Ia as [<-|[<-|[<-|[]]]], Ib as [<-|[<-|[<-|[]]]]; try reflexivity; exfalso; revert SL;
      [rewrite (Iff "a" "b" 1 2)|rewrite (Iff "a" "c" 1 3)|rewrite (Iff "b" "a" 2 1)|rewrite (Iff "b" "c" 2 3)|rewrite (Iff "c" "a" 3 1)|rewrite (Iff "c" "b" 3 2)]; cbn; tauto || lia. }
  assert (Len : List.length (List.concat lines) = 3%nat).
  { apply (Permutation_length (l' := ["a"; "b"; "c"])). apply NoDup_Permutation; [exact ND|repeat constructor; cbn; intuition discriminate|exact Nm]. }
  destruct (List.concat lines) as [|x [|y [|z [|]]]]; try discriminate Len. cbn [map] in Sg. subst lines.
  destruct (C88_report_never_fails 30 ex_load ["a"; "b"; "c"] no_formats false _ _ _ _ _ ltac:(lia) eq_refl L reg_init_ok Fit E) as (ds & E').
  exists x, y, z, ds. split; [exact E'|]. split; [exact ND|].
  destruct (C88_report_partial 30 ex_load (mkOptions ["a"; "b"; "c"] no_formats false true) _ _ _ _ _ _ ltac:(lia) eq_refl L reg_init_ok Fit E' eq_refl) as [M _].
  cbn [consecutive] in M. intros d Hd. apply (in_map fst) in Hd. rewrite M in Hd. inversion ND as [|? ? N1 N2]; subst. inversion N2 as [|? ? N3 _]; subst.
  cbn [In] in *. destruct Hd as [<-|[<-|[]]]; intros [= ]; subst; tauto.
Qed.
(** A file that is given twice, say to be read in two formats, is compared with nothing, whatever
    the two readings are. *)
Theorem C88_one_name : forall SHIFT load o n reg0 reg' out, (forall j, In j (jobs o) -> fst j = n) -> jobs o <> [] ->
  check_equivalence SHIFT load o reg0 = (reg', Ok out) -> out = Nothing.
Proof.
  intros SHIFT load o n reg0 reg' out HN NE E. destruct (tool_load _ _ _ _ _ _ E) as (reg & rulesets & L). destruct (load_names _ _ _ _ _ L) as [N1 N2].
  apply (tool_run _ _ _ _ _ _ _ _ L) in E. unfold compare_rulesets in E. destruct rulesets as [|[a A] others].
  - exfalso. destruct (jobs o) as [|j js]; [congruence|]. apply (proj2 (N2 (fst j))). now left.
  - assert (Q : forall x, In x (map fst ((a, A) :: others)) -> x = n) by (intros x Hx; apply N2 in Hx; apply in_map_iff in Hx as (j & <- & Hj); auto).
    destruct others as [|[b B] rest].
    + unfold sbind in E. destruct (sfold _ _ _ _) as [r1 [w|e]]; [|discriminate E]. unfold sret in E. now injection E as _ <-.
    + exfalso. cbn [map fst] in *. inversion N1 as [|? ? X _]; subst. apply X. left. rewrite (Q a), (Q b); cbn; auto.
Qed.
Definition two_formats (f : string) : list string := if String.eqb f "ovs" then ["x"] else if String.eqb f "fib" then ["x"] else [].
(** Full claim: the readings asked for on the command line are compared. *)
Theorem C88_named_twice_refuted : jobs (mkOptions [] two_formats false false) = [("x", "ovs"); ("x", "fib")] /\
  ex_load "x" "ovs" registry_init = (registry_init, Ok (send 1)) /\ ex_load "x" "fib" registry_init = (registry_init, Ok (send 2)) /\
  (forall p, executes false (send 1) p [OUTPUT 1] /\ executes false (send 2) p [OUTPUT 2]) /\
  check_equivalence 30 ex_load (mkOptions [] two_formats false false) registry_init = (registry_init, Ok Nothing).
Proof.
  split; [reflexivity|]. split; [reflexivity|]. split; [reflexivity|]. split; [intros p; split; apply send_executes; cbn; tauto|].
  unfold check_equivalence, sbind at 1. change (load_all ex_load _ registry_init) with (registry_init, Ok [("x", send 2)]). cbn iota beta.
  unfold compare_rulesets, sbind at 1. cbn [op_dc]. destruct (send_loop [("x", send 2)] ltac:(repeat constructor; exists 2; cbn; auto) (mkWork acts_init [] [])) as (w & ->). reflexivity.
Qed.
Print Assumptions C88_files_loaded.
Print Assumptions C88_every_name_once.
Print Assumptions C88_last_load.
Print Assumptions C88_which_format.
Print Assumptions C88_same_line_iff.
Print Assumptions C88_same_line_same_forwarding.
Print Assumptions C88_report_partial.
Print Assumptions C88_report_never_fails.
Print Assumptions C88_first_against_each_refuted.
Print Assumptions C88_one_name.
Print Assumptions C88_named_twice_refuted.
