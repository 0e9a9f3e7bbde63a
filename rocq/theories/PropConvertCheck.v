(** Theorems for C94: convert_ruleset to Open vSwitch followed by check_equivalence. *)
From Coq Require Import Lia ZifyBool ZifyNat Permutation.
From Verif Require Import SpecTool SpecPipeline SpecOvs SpecLoad SpecMisc FormatProofs MatchProofs ActionProofs ActionSetProofs InstProofs MergeProofs SingleTableProofs PriorityProofs PathProofs ExecProofs PerOutputProofs EagerProofs EagerSem NormaliseProofs PropNormalise PropMerge PropSingle Tool ToolProofs PropTool
  Ovs Load PropOvs PropLoad Convert EqualRules PropConvert ToolTotal PropToolTotal SpecFibTool MiscProofs Fib FibTool PropFibTool PropMisc.
Local Open Scope string_scope.
Local Open Scope list_scope.
Local Open Scope Z_scope.
Local Opaque NB WC_FULLWC layout oxm_fields registry_init.

(** ** The cookie *)
(** the rule as it is written: a cookie None is written as 0, Ovs.v rule_to_ovs *)
Definition plain_cookie (c : core) : core := mkCore (priority c) (Some (match cookie c with Some k => k | None => 0 end)) (rmatch c) (inst c) (table c).
Definition plain_rule (r : rule) : rule := mkRule (plain_cookie (rcore r)) (path r).
Lemma plain_written l : ruleset_to_ovs (map plain_cookie l) = ruleset_to_ovs l.
Proof. unfold ruleset_to_ovs. rewrite map_map. f_equal. Qed.
(** rules alike in all that decides about packets *)
Definition alike (a b : rule) : Prop := priority (rcore a) = priority (rcore b) /\ table (rcore a) = table (rcore b) /\ rmatch (rcore a) = rmatch (rcore b) /\ inst (rcore a) = inst (rcore b).
Lemma alike_sym a b : alike a b -> alike b a.
Proof. intros (A & B & C & D). split; [|split; [|split]]; congruence. Qed.
Lemma alikes_sym A B : Forall2 alike A B -> Forall2 alike B A.
Proof. induction 1; constructor; [now apply alike_sym|assumption]. Qed.
Lemma alike_accepts a b p : alike a b -> rule_accepts a p -> rule_accepts b p.
Proof. intros (_ & _ & E & _). unfold rule_accepts. now rewrite E. Qed.
Lemma alike_hit A B t p r : Forall2 alike A B -> table_hit A t p r -> exists s, table_hit B t p s /\ alike r s.
Proof.
  intros F (l1 & l2 & -> & T & Ac & L1 & L2). apply Forall2_app_inv_l in F as (m1 & m & F1 & F2 & ->). inversion F2 as [|? s ? m2 H F3]; subst. exists s. split; [|exact H].
  assert (K := H). destruct K as (Pr & Ta & _). exists m1, m2. split; [reflexivity|]. split; [congruence|]. split; [now apply (alike_accepts r)|].
  split; intros x Hx Tx Ax.
  - destruct (forall2_in_r _ _ _ F1 x Hx) as (y & Hy & Ey). assert (K := Ey). destruct K as (Py & Ty & _). rewrite <- Pr, <- Py. apply L1; [exact Hy|congruence|]. apply (alike_accepts x); [now apply alike_sym|exact Ax].
  - destruct (forall2_in_r _ _ _ F3 x Hx) as (y & Hy & Ey). assert (K := Ey). destruct K as (Py & Ty & _). rewrite <- Pr, <- Py. apply L2; [exact Hy|congruence|]. apply (alike_accepts x); [now apply alike_sym|exact Ax].
Qed.
Lemma alike_miss A B t p : Forall2 alike A B -> table_miss A t p -> table_miss B t p.
Proof.
  intros F M x Hx Tx Ax. destruct (forall2_in_r _ _ _ F x Hx) as (y & Hy & Ey). assert (K := Ey). destruct K as (_ & Ty & _). apply (M y Hy); [congruence|]. apply (alike_accepts x); [now apply alike_sym|exact Ax].
Qed.
Lemma alike_pipeline A B t p d ws miss app wr : Forall2 alike A B -> pipeline A t p d ws miss app wr -> pipeline B t p d ws miss app wr.
Proof.
  intros F H. induction H as [t p d ws r t' miss app wr H G P IH|t p d ws r H G|t p d ws H].
  - destruct (alike_hit A B t p r F H) as (s & Hs & _ & _ & _ & I). rewrite I in *. exact (pl_goto B t p d ws s t' miss app wr Hs G IH).
  - destruct (alike_hit A B t p r F H) as (s & Hs & _ & _ & _ & I). rewrite I in *. exact (pl_stop B t p d ws s Hs G).
  - apply pl_miss. now apply (alike_miss A).
Qed.
Lemma alike_executes A B drop p xs : Forall2 alike A B -> executes drop A p xs -> executes drop B p xs.
Proof. intros F (miss & app & wr & o & P & S & E). exists miss, app, wr, o. split; [now apply (alike_pipeline A)|auto]. Qed.
Lemma plain_alike rs : Forall2 alike rs (map plain_rule rs).
Proof. induction rs; constructor; [repeat split|assumption]. Qed.
Lemma plain_good o rs : Forall (good_rule registry_init o) rs -> Forall (good_rule registry_init o) (map plain_rule rs).
Proof. intros H. apply Forall_forall. intros x Hx. apply in_map_iff in Hx as (y & <- & Hy). rewrite Forall_forall in H. exact (H y Hy). Qed.
Lemma plain_total rs : total_tables rs -> total_tables (map plain_rule rs).
Proof.
  intros H r Hr P p. apply in_map_iff in Hr as (y & <- & Hy). destruct (H y Hy P p) as (x & Hx & Tx & Ax). exists (plain_rule x). split; [now apply in_map|]. split; [exact Tx|exact Ax].
Qed.

(** ** Rulesets that do the same are on one line *)
Lemma teq_single A B reg ra ra' SA rb rb' SB : rle reg ra -> reg_ok ra -> rle reg rb -> reg_ok rb -> Forall (good_rule reg true) A -> Forall (good_rule reg true) B -> total_tables A -> total_tables B ->
  (forall p xs, executes false A p xs -> exists ys, executes false B p ys /\ teq xs ys) ->
  to_single_table (sort_ruleset A) true ra = (ra', Ok SA) -> to_single_table (sort_ruleset B) true rb = (rb', Ok SB) ->
  (forall R, In R SB -> is_ok (rule_actions R) = true) -> forall p x, prescribes SA p x -> prescribes SB p x.
Proof.
  intros La Ha Lb Hb GA GB TA TB E EA EB OB p x.
  assert (GA' : Forall (good_rule ra true) (sort_ruleset A)) by (apply sort_good, (good_rules_mono reg); eauto).
  assert (GB' : Forall (good_rule rb true) (sort_ruleset B)) by (apply sort_good, (good_rules_mono reg); eauto).
  destruct (single_table_ok _ _ _ _ _ Ha GA' (sort_total _ TA) EA p) as (cA & MA & (out & XA) & SemA).
  destruct (single_table_ok _ _ _ _ _ Hb GB' (sort_total _ TB) EB p) as (cB & MB & _ & SemB).
  assert (WA : inst_wf (inst (rcore cA))). { destruct (single_tables _ _ _ _ _ Ha GA' EA) as (_ & G & _). unfold goods in G. rewrite Forall_forall in G. apply (G cA). apply (NormaliseProofs.first_match_in _ _ _ MA). }
  assert (WB : inst_wf (inst (rcore cB))). { destruct (single_tables _ _ _ _ _ Hb GB' EB) as (_ & G & _). unfold goods in G. rewrite Forall_forall in G. apply (G cB). apply (NormaliseProofs.first_match_in _ _ _ MB). }
  intros [[F _]|(c & d & F & Ed & ->)]; [assert (Y := first_match_unique _ _ _ _ MA F); discriminate Y|].
  assert (Y := first_match_unique _ _ _ _ MA F). injection Y as <-. right. exists cB, d. split; [exact MB|]. split; [|reflexivity].
  assert (OB' := OB cB (proj1 (NormaliseProofs.first_match_in _ _ _ MB))). unfold rule_actions in *.
  destruct (full_actions (inst (rcore cA))) as [la|] eqn:LA; [|discriminate Ed]. destruct (full_actions (inst (rcore cB))) as [lb|] eqn:LB; [|discriminate OB']. cbn [rbind] in *.
  assert (XA' := XA). rewrite sort_executes in XA'. destruct (E p out XA') as (out' & XB & T). rewrite <- sort_executes in XB.
  assert (T1 := SemA la out eq_refl XA). assert (T2 := SemB lb out' eq_refl XB).
  destruct (full_canon _ _ WA LA) as (xa & Ca). destruct (full_canon _ _ WB LB) as (xb & Cb).
  assert (Eq : al_iter la = al_iter lb). { eapply canon_teq; [exact Ca|exact Cb|]. eapply te_trans; [apply ateq_sym, T1|]. eapply te_trans; [exact T|exact T2]. }
  rewrite <- Ed. unfold per_output_actions, per_output_actions_pt. now rewrite Eq.
Qed.
Lemma teq_same_line SHIFT load o reg0 reg rulesets reg' lines ds : 0 < SHIFT -> SHIFT mod 2 = 0 ->
  load_all load o reg0 = (reg, Ok rulesets) -> reg_ok reg -> (forall n A, In (n, A) rulesets -> Forall (good_rule reg true) A) ->
  check_equivalence SHIFT load o reg0 = (reg', Ok (Lines lines ds)) ->
  forall a A b B, In (a, A) rulesets -> In (b, B) rulesets -> total_tables A -> total_tables B ->
  (forall p xs, executes false A p xs -> exists ys, executes false B p ys /\ teq xs ys) -> (forall p xs, executes false B p xs -> exists ys, executes false A p ys /\ teq xs ys) -> same_line lines a b.
Proof.
  intros Hs He L HR HG E a A b B HA HB TA TB EAB EBA. destruct (load_names _ _ _ _ _ L) as [N1 _].
  apply (tool_run _ _ _ _ _ _ _ _ L) in E. apply compare_run in E as (w & gs & P & G & -> & _).
  destruct (run_known _ _ _ _ _ _ Hs He HR N1 (fun na H => HG (fst na) (snd na) ltac:(now destruct na)) P) as (ND & _ & F).
  destruct (forall2_find _ _ _ _ F HA) as ([a' ba] & Ia & [Ka (ra & ra' & SA & f & A1 & A2 & A3 & _ & _ & _ & _ & OA & Fa & Pa)]).
  destruct (forall2_find _ _ _ _ F HB) as ([b' bb] & Ib & [Kb (rb & rb' & SB & g & B1 & B2 & B3 & _ & _ & _ & _ & OB & Fb & Pb)]).
  cbn [fst snd] in *. subst a' b'. apply (same_line_iff (w_canon w) gs (a, ba) (b, bb)); auto.
  { rewrite <- (known_names _ _ _ _ _ _ F). exact N1. }
  apply (sem_equal (w_acts w) ba bb f g SA SB ND Fa Fb Pa Pb).
  assert (GA := HG a A HA). assert (GB := HG b B HB).
  intros p x. split; [exact (teq_single A B reg ra ra' SA rb rb' SB A1 A2 B1 B2 GA GB TA TB EAB A3 B3 OB p x)|exact (teq_single B A reg rb rb' SB ra ra' SA B1 B2 A1 A2 GB GA TB TA EBA B3 A3 OA p x)].
Qed.

(** ** Written actions are ordinary *)
Lemma written_settable f w : In (f, w) written_fields -> In f (map fst field_deps).
Proof.
  assert (X : forallb (fun fw => existsb (String.eqb (fst fw)) (map fst field_deps)) written_fields = true) by (vm_compute; reflexivity).
  intros H. rewrite forallb_forall in X. specialize (X _ H). apply existsb_exists in X as (y & Hy & E). cbn [fst] in E. apply String.eqb_eq in E. now subst.
Qed.
Lemma writable_ordinary a : writable_action a -> ordinary a.
Proof.
  destruct a as [n v]. intros [[H ->]|[[H (k & -> & _)]|[-> (f & k & -> & (w & H & _) & _)]]].
  - apply or_bare. cbn in *. tauto.
  - apply or_number. cbn in *. tauto.
  - apply or_set. now apply (written_settable f w).
Qed.
Lemma writable_rule r : writable (plain_cookie (rcore r)) -> ordinary_rule r.
Proof.
  intros (items & xs & ws & _ & _ & A & W & Fx & Fw & _). cbn [plain_cookie inst] in *. rewrite Forall_forall in Fx, Fw. split; apply Forall_forall; intros a Ha; apply writable_ordinary.
  - apply al_of_ok in A as [A _]. rewrite A in Ha. now apply Fx.
  - apply Fw. apply as_of_inv in W as (_ & _ & _ & W & _). apply W in Ha. now apply winner_in.
Qed.
Lemma equal_ordinary a b : inst_wf (inst (rcore a)) -> inst_wf (inst (rcore b)) -> core_eqb (rcore a) (rcore b) = true -> ordinary_rule a -> ordinary_rule b.
Proof.
  intros Wa Wb E [H1 H2]. rewrite Forall_forall in H1, H2. destruct (core_eqb_parts _ _ E) as (_ & _ & _ & Ei & _). destruct (inst_eqb_parts _ _ Wa Wb Ei) as (_ & _ & Ea & Ew).
  split; apply Forall_forall; intros x Hx.
  - apply H1. eapply Permutation_in; [apply Permutation_sym, ateq_perm, Ea|exact Hx].
  - unfold inst_eqb in Ei. rewrite !andb_true_iff in Ei. destruct Ei as ((_ & W) & _). destruct Wa as (_ & Aw & _), Wb as (_ & Bw & _). apply (al_eqb_iff _ _ _ _ Aw Bw) in W. apply ateq_perm in W.
    apply H2. eapply Permutation_in; [apply Permutation_sym, W|exact Hx].
Qed.

(** ** C94 *)
Lemma load_two files o a fa A b fb B : jobs o = [(a, fa); (b, fb)] -> a <> b -> files a fa registry_init = (registry_init, Ok A) -> files b fb registry_init = (registry_init, Ok B) ->
  load_all files o registry_init = (registry_init, Ok [(a, A); (b, B)]).
Proof.
  intros J N LA LB. unfold load_all. rewrite J. cbn [sfold]. unfold sbind at 1, load_into at 1. cbn [fst snd]. unfold sbind at 1. rewrite LA. unfold sret at 1. cbn [dict_set].
  unfold sbind at 1, load_into. cbn [fst snd]. unfold sbind at 1. rewrite LB. unfold sret. cbn [dict_set]. apply String.eqb_neq in N. rewrite N. reflexivity.
Qed.
(** A ruleset written with convert_ruleset -o ovs and given to check_equivalence beside the file that it was
    made from: the command always prints lines, with both names on one, whatever the options. *)
Theorem C94_convert_then_check : forall json pickle other name rest source fmt rs,
  load_ruleset json pickle name rest source fmt registry_init = (registry_init, Ok rs) ->
  Forall (fun r => writable (plain_cookie (rcore r))) rs -> Forall (good_rule registry_init true) rs -> total_tables rs ->
  (exists r, In r rs /\ table (rcore r) = 0) -> (forall r, In r rs -> priority (rcore r) < 2 ^ 16 /\ path r = []) ->
  exists out, convert_ruleset json pickle other name rest source fmt "ovs" registry_init = (registry_init, Ok (Some out)) /\
  forall SHIFT files o a b json' pickle' name' rest', 0 < SHIFT -> SHIFT mod 2 = 0 -> a <> b ->
  jobs o = [(a, fmt); (b, "ovs")] \/ jobs o = [(b, "ovs"); (a, fmt)] ->
  files a fmt = load_ruleset json pickle name rest source fmt -> files b "ovs" = load_ruleset json' pickle' name' rest' out "ovs" ->
  exists reg' lines ds, check_equivalence SHIFT files o registry_init = (reg', Ok (Lines lines ds)) /\ same_line lines a b.
Proof.
  intros json pickle other name rest source fmt rs L W G T (r0 & I0 & T0) PP. set (rs0 := map plain_rule rs).
  assert (W0 : Forall writable (map rcore rs0)).
  { apply Forall_forall. intros c Hc. subst rs0. rewrite map_map in Hc. apply in_map_iff in Hc as (r & <- & Hr). rewrite Forall_forall in W. exact (W r Hr). }
  destruct (C78_named_ovs json pickle name rest _ W0) as (out & rs' & E1 & E2 & E3). exists out. split.
  { assert (E1' : ruleset_to_ovs (map rcore rs) = Ok out). { rewrite <- E1, <- (plain_written (map rcore rs)). subst rs0. rewrite !map_map. reflexivity. }
    unfold convert_ruleset, sbind. rewrite L. unfold slift, save_ruleset. cbn [writer_of String.eqb Ascii.eqb Bool.eqb write_with]. now rewrite E1'. }
  intros SHIFT files o a b json' pickle' name' rest' Hs He NE J Fa Fb. apply forall2_map_l in E3.
  assert (E3' : Forall2 (fun a b => core_eqb (rcore a) (rcore b) = true /\ made (rcore b)) rs0 rs') by (eapply forall2_weaken; [|exact E3]; cbn beta; tauto).
  assert (Q := cv_equal rs0 rs' E3'). assert (WF := cv_wf rs0 rs' W0 E3').
  assert (W1 : forall R, In R rs0 -> match_ok registry_init (rmatch (rcore R)) /\ inst_wf (inst (rcore R))) by (intros R H; apply WF, in_or_app; now left).
  assert (W2 : forall R, In R rs' -> match_ok registry_init (rmatch (rcore R)) /\ inst_wf (inst (rcore R))) by (intros R H; apply WF, in_or_app; now right).
  assert (Q' := equal_sym _ _ Q _ _ W1 W2). assert (T' := equal_total rs0 rs' registry_init W1 W2 Q (plain_total _ T)). assert (G' := cv_good rs0 rs' E3' true (plain_good _ _ G)).
  assert (LB : files b "ovs" registry_init = (registry_init, Ok rs')) by (rewrite Fb; rewrite <- E2; reflexivity).
  assert (LA : files a fmt registry_init = (registry_init, Ok rs)) by (rewrite Fa; exact L).
  assert (LD : exists rulesets, load_all files o registry_init = (registry_init, Ok rulesets) /\ (rulesets = [(a, rs); (b, rs')] \/ rulesets = [(b, rs'); (a, rs)])).
  { destruct J as [J|J].
    - exists [(a, rs); (b, rs')]. split; [exact (load_two files o _ _ _ _ _ _ J NE LA LB)|now left].
    - exists [(b, rs'); (a, rs)]. split; [exact (load_two files o _ _ _ _ _ _ J (not_eq_sym NE) LB LA)|now right]. }
  destruct LD as (rulesets & LL & RS).
  assert (IN : In (a, rs) rulesets /\ In (b, rs') rulesets /\ forall n A, In (n, A) rulesets -> A = rs \/ A = rs').
  { destruct RS as [-> | ->]; (split; [cbn; tauto|split; [cbn; tauto|]]); intros n A [X|[X|[]]]; injection X as <- <-; auto. }
  destruct IN as (Ia & Ib & IN).
  assert (HH : forall n A, In (n, A) rulesets -> Forall (good_rule registry_init true) A /\ Forall ordinary_rule A /\ (exists r, In r A /\ table (rcore r) = 0) /\
    (forall r, In r A -> priority (rcore r) < 2 ^ 16) /\ (op_dc o = true \/ op_difference o = true -> total_tables A) /\ (op_difference o = true -> forall r, In r A -> path r = [])).
  { intros n A H. destruct (IN n A H) as [-> | ->].
    - split; [exact G|]. split; [eapply Forall_impl; [|exact W]; intros r Hr; now apply writable_rule|]. split; [eauto|]. split; [intros r Hr; apply (PP r Hr)|]. split; [auto|]. intros _ r Hr. apply (PP r Hr).
    - split; [exact G'|]. split; [|split; [|split; [|split; [auto|]]]].
      + apply Forall_forall. intros y Hy. destruct (forall2_in_r _ _ _ E3 y Hy) as (x & Hx & Exy & _). apply (equal_ordinary x y); [apply (W1 x Hx)|apply (W2 y Hy)|exact Exy|].
        subst rs0. apply in_map_iff in Hx as (z & <- & Hz). rewrite Forall_forall in W. exact (writable_rule z (W z Hz)).
      + destruct (equal_in_l _ _ Q (plain_rule r0) (in_map _ _ _ I0)) as (y & Hy & Ey). exists y. split; [exact Hy|]. destruct (core_eqb_parts _ _ Ey) as (_ & _ & _ & _ & X). rewrite <- X. exact T0.
      + intros y Hy. destruct (forall2_in_r _ _ _ E3 y Hy) as (x & Hx & Exy & _). destruct (core_eqb_parts _ _ Exy) as (X & _). rewrite <- X. subst rs0. apply in_map_iff in Hx as (z & <- & Hz). apply (PP z Hz).
      + intros _ y Hy. destruct (forall2_in_r _ _ _ E3 y Hy) as (x & _ & _ & _ & Py). exact Py. }
  destruct (C92_always_answers SHIFT files o registry_init registry_init rulesets Hs He LL reg_init_ok HH) as (reg' & o' & R & K).
  assert (OL : exists lines ds, o' = Lines lines ds) by (destruct RS as [-> | ->]; destruct K as (lines & ds & -> & _); eauto). destruct OL as (lines & ds & ->). exists reg', lines, ds. split; [exact R|].
  refine (teq_same_line SHIFT files o registry_init registry_init rulesets reg' lines ds Hs He LL reg_init_ok (fun n A H => proj1 (HH n A H)) R a rs b rs' Ia Ib T T' _ _).
  - intros p xs X. apply (equal_executes registry_init registry_init rs0 rs' W1 W2 Q false p xs). exact (alike_executes rs rs0 false p xs (plain_alike rs) X).
  - intros p xs X. destruct (equal_executes registry_init registry_init rs' rs0 W2 W1 Q' false p xs X) as (ys & Y & TE). exists ys. split; [|exact TE]. exact (alike_executes rs0 rs false p ys (alikes_sym _ _ (plain_alike rs)) Y).
Qed.

(** ** Routing tables can be written *)
Definition fib_made (c : rule) : Prop := exists ip len, 0 <= len <= 32 /\ 0 <= ip < 2 ^ 32 /\ s_append match_new "IPV4_DST" ip (Some (netmask len)) registry_init = (registry_init, Ok (rmatch (rcore c))).
Lemma fib_line_made s r line s' : route_line r line -> fib_line s line registry_init = (registry_init, Ok s') -> exists c, fb_rules s' = fb_rules s ++ [c] /\ fib_made c.
Proof.
  intros H. destruct (route_read r line H) as [ws [W [P [LEN [IP [w1 [mk [addr [a [b [c [d [I1 [I2 [I3 [I4 [[ta [tb [tc [td [SP [A [B [C D]]]]]]]] V]]]]]]]]]]]]]]]]].
  unfold fib_line, sbind at 1. rewrite W, I1. cbn [rbind]. rewrite I2. cbn [rbind]. rewrite I3. cbn [rbind]. rewrite I4. cbn [rbind]. rewrite SP.
  unfold Fib.item at 1 2 3 4. cbn [nth_error rbind]. rewrite A. cbn [rbind]. rewrite B. cbn [rbind]. rewrite C. cbn [rbind]. rewrite D. cbn [rbind].
  unfold shl. rewrite (proj2 (Z.ltb_ge (32 - ro_len r) 0)) by lia. cbn [rbind slift]. rewrite V. fold (netmask (ro_len r)).
  destruct (fib_match_good registry_init (weigh 256 (ro_octets r)) (ro_len r) reg_init_ok LEN IP) as [m [E Mo]]. unfold sbind at 1. rewrite E.
  unfold sbind at 1. cbn [slift]. rewrite P. destruct (peer_port (fb_map s) (ro_peer r)) as [k|] eqn:K.
  - unfold sbind at 1. cbn [slift]. rewrite K. unfold sbind at 1. cbn [slift]. rewrite output_append. cbn [sret]. intros [= <-].
    eexists. cbn [fb_rules]. split; [reflexivity|]. exists (weigh 256 (ro_octets r)), (ro_len r). auto.
  - unfold sbind at 1. cbn [slift fb_map]. cbn [peer_port]. destruct (text_eqb_spec (ro_peer r) (ro_peer r)) as [_|Q]; [|congruence].
    unfold sbind at 1. cbn [slift]. rewrite output_append. cbn [sret fb_count fb_map fb_rules]. intros [= <-].
    eexists. cbn [fb_rules]. split; [reflexivity|]. exists (weigh 256 (ro_octets r)), (ro_len r). auto.
Qed.
Lemma fib_all_made rs lines rules : Forall2 route_line rs lines -> ruleset_from_fib lines registry_init = (registry_init, Ok rules) -> Forall fib_made rules.
Proof.
  intros F. unfold ruleset_from_fib, sbind, sret.
  assert (G : forall s s', sfold fib_line lines s registry_init = (registry_init, Ok s') -> Forall fib_made (fb_rules s) -> Forall fib_made (fb_rules s')).
  { induction F as [|r line rs lines H F IH]; intros s s' E Hs; cbn [sfold] in E; [injection E as <-; exact Hs|].
    destruct (fib_line_ok registry_init s r line reg_init_ok H) as (s1 & E1 & _). unfold sbind in E. rewrite E1 in E. apply (IH s1 s' E).
    destruct (fib_line_made s r line s1 H E1) as (c & -> & Hc). apply Forall_app. auto. }
  destruct (sfold fib_line lines (mkFib 0 [] []) registry_init) as [r' [s'|e]] eqn:E; [|discriminate]. intros [= -> <-]. apply (G _ _ E). constructor.
Qed.
Lemma netmask_range len : 0 <= netmask len < 2 ^ 32.
Proof. unfold netmask, IP_MASK. change 4294967295 with (Z.ones 32). rewrite Z.land_ones by lia. apply Z.mod_pos_bound. lia. Qed.
Lemma fib_field ip len m : 0 <= ip < 2 ^ 32 -> s_append match_new "IPV4_DST" ip (Some (netmask len)) registry_init = (registry_init, Ok m) ->
  match_append_all registry_init match_new [("IPV4_DST", (ip, Some (netmask len)))] = (registry_init, m) /\ Forall writable_field (m_items m).
Proof.
  intros IP E. unfold s_append in E. cbn [match_append_all]. destruct (match_append registry_init match_new "IPV4_DST" ip (Some (netmask len))) as [r' m'] eqn:M. injection E as -> ->. split; [reflexivity|].
  destruct dst_slot as [s [S1 [S2 S3]]]. destruct (reg_bits_known registry_init "IPV4_DST" s reg_init_ok S1 S2) as [i D]. rewrite S3 in D.
  unfold match_append, oxm_name_to_id in M. rewrite D, D in M. destruct (append_norm (Some 32) ip (Some (netmask len))) as [v mk] eqn:AN.
  injection M as <-. cbn [m_items match_new dict_set]. constructor; [|constructor]. unfold writable_field.
  assert (F : forall v, 0 <= v < 2 ^ 32 -> fits_field "IPV4_DST" v) by (intros u U; exists 32; split; [cbn; tauto|exact U]).
  assert (N := netmask_range len). unfold append_norm in AN. cbn [Z.eqb orb] in AN. destruct (netmask len =? 0) eqn:Z0.
  - injection AN as <- <-. split; apply F; lia.
  - assert (LR : forall x y, 0 <= x < 2 ^ 32 -> 0 <= y -> 0 <= Z.land x y < 2 ^ 32).
    { intros x y X Y. assert (U : Z.land x y = Z.land x (Z.land y (Z.ones 32))).
      { rewrite (Z.land_comm y), Z.land_assoc, Z.land_ones by lia. rewrite (Z.mod_small x) by lia. reflexivity. }
      rewrite U, Z.land_assoc, Z.land_ones by lia. apply Z.mod_pos_bound. lia. }
    assert (M0 : 0 <= Z.land (netmask len) (2 ^ 32 - 1)) by (apply Z.land_nonneg; lia).
    injection AN as <- <-. split; [apply F, LR; [exact IP|exact M0]|]. match goal with |- match (if ?c then _ else _) with _ => _ end => destruct c end; [exact Logic.I|]. apply F. change 4294967295 with (2 ^ 32 - 1). apply LR; lia.
Qed.
Lemma numbered_pos peers w k : numbered peers w k -> 0 <= k.
Proof. intros (l1 & l2 & _ & _ & ->). lia. Qed.
Lemma fib_writable rs lines rules : Forall2 route_line rs lines -> rs <> [] -> ruleset_from_fib lines registry_init = (registry_init, Ok rules) -> Forall (fun r => writable (plain_cookie (rcore r))) rules.
Proof.
  intros F N E. assert (M := fib_all_made rs lines rules F E). destruct (fib_table registry_init rs lines rules reg_init_ok F N E) as (_ & B & F2).
  apply Forall_forall. intros c Hc. rewrite Forall_forall in M. destruct (M c Hc) as (ip & len & _ & IP & Em). destruct (forall2_find_r _ _ _ _ F2 Hc) as (r & Hr & (k & K & (T0 & Pr & Ck & _ & I & _)) & _).
  apply numbered_pos in K. destruct (fib_field ip len _ IP Em) as [M1 M2]. destruct (B r Hr) as [L _].
  exists [("IPV4_DST", (ip, Some (netmask len)))], [], [("OUTPUT", VInt k)]. cbn [plain_cookie rmatch inst cookie priority table]. rewrite I. cbn [apply_actions write_actions goto_table write_metadata meter].
  split; [exact M1|]. split; [exact M2|]. split; [reflexivity|]. split; [apply output_append|]. split; [constructor|]. split; [constructor; [|constructor]; right; left; split; [cbn; tauto|eauto]|].
  rewrite Ck. split; [exists 0; split; [reflexivity|lia]|]. rewrite Pr, T0. repeat split; lia.
Qed.
(** For every routing table with a line: convert_ruleset writes it as Open vSwitch flows, and check_equivalence
    --fib table --ovs flows prints both on one line. *)
Theorem C94_routing_table : forall json pickle other name rest table lns contents, Forall2 route_line table lns -> table <> [] -> Forall (fun l => ~ In newline l) lns -> lines_text lns contents ->
  exists out, convert_ruleset json pickle other name rest contents "fib" "ovs" registry_init = (registry_init, Ok (Some out)) /\
  forall SHIFT files a b dc dif json' pickle' name' rest', 0 < SHIFT -> SHIFT mod 2 = 0 -> a <> b ->
  files a "fib" = load_ruleset json pickle name rest contents "fib" -> files b "ovs" = load_ruleset json' pickle' name' rest' out "ovs" ->
  exists reg' lines ds, check_equivalence SHIFT files (mkOptions [] (fun f => if String.eqb f "fib" then [a] else if String.eqb f "ovs" then [b] else []) dc dif) registry_init = (reg', Ok (Lines lines ds)) /\ same_line lines a b.
Proof.
  intros json pickle other name rest table lns contents F N NL LT.
  destruct (C78_named_fib json pickle name rest table lns contents registry_init reg_init_ok F NL LT) as (rules & E2 & E1).
  assert (TB := fib_table registry_init table lns rules reg_init_ok F N E2).
  destruct (C94_convert_then_check json pickle other name rest contents "fib" rules E1 (fib_writable _ _ _ F N E2) (table_good _ _ _ TB) (table_total_tables _ _ _ TB) (table_start _ _ _ TB)
    (fun r Hr => conj (table_prio _ _ _ r TB Hr) (table_path _ _ _ r TB Hr))) as (out & C & H).
  exists out. split; [exact C|]. intros SHIFT files a b dc dif json' pickle' name' rest' Hs He NE Fa Fb.
  exact (H SHIFT files (mkOptions [] (fun f => if String.eqb f "fib" then [a] else if String.eqb f "ovs" then [b] else []) dc dif) a b json' pickle' name' rest' Hs He NE (or_intror eq_refl) Fa Fb).
Qed.

(** ** Examples *)
(** the routing table of C93 and the flows written for it *)
Example C94_ex_flows : match snd (convert_ruleset no_pickle no_pickle nothing_else (T "a") [] (ex_contents "a") "fib" "ovs" registry_init) with Ok (Some out) => S_ out | _ => "" end =
  ("cookie=0x0, table=0, priority=0,ip_dst=0.0.0.0/0.0.0.0 actions=write_actions(output:1)" ++ String newline
   "cookie=0x0, table=0, priority=8,ip_dst=10.0.0.0/255.0.0.0 actions=write_actions(output:2)" ++ String newline "")%string.
Proof. vm_compute. reflexivity. Qed.
Example C94_ex_table : Forall2 route_line (ex_table "a") (ex_lns "a") /\ ex_table "a" <> [] /\ Forall (fun l => ~ In newline l) (ex_lns "a") /\ lines_text (ex_lns "a") (ex_contents "a").
Proof. apply ex_files. now left. Qed.
(** Two tables with a goto and a set field; the second rule has no cookie. *)
Definition no_cookie : list rule := map (fun r => if priority (rcore r) =? 0 then mkRule (mkCore (priority (rcore r)) None (rmatch (rcore r)) (inst (rcore r)) (table (rcore r))) [] else r) two_tables.
Lemma no_cookie_writable : Forall (fun r => writable (plain_cookie (rcore r))) no_cookie.
Proof.
  assert (W := two_writable). apply Forall_forall. intros r Hr. apply in_map_iff in Hr as (y & <- & Hy). rewrite Forall_forall in W. specialize (W (rcore y) (in_map _ _ _ Hy)).
  assert (K : exists k, cookie (rcore y) = Some k /\ 0 <= k) by (destruct W as (? & ? & ? & _ & _ & _ & _ & _ & _ & K & _); exact K). destruct K as (k & K & _).
  destruct (priority (rcore y) =? 0).
  - destruct W as (items & xs & ws & W). exists items, xs, ws. cbn [plain_cookie rcore rmatch inst cookie priority table]. destruct W as (W1 & W2 & W3 & W4 & W5 & W6 & _ & W8).
    do 6 (split; [assumption|]). split; [exists 0; split; [reflexivity|lia]|exact W8].
  - unfold plain_cookie. rewrite K. destruct y as [[p c m i t] q]. cbn in K |- *. rewrite <- K. exact W.
Qed.
Example C94_ex : let load := load_ruleset (sret no_cookie) no_pickle (T "a.json") [] [] "ryu_json" in
  load registry_init = (registry_init, Ok no_cookie) /\ Forall (fun r => writable (plain_cookie (rcore r))) no_cookie /\ Forall (good_rule registry_init true) no_cookie /\ total_tables no_cookie /\
  (exists r, In r no_cookie /\ table (rcore r) = 0) /\ (forall r, In r no_cookie -> priority (rcore r) < 2 ^ 16 /\ path r = []) /\ map (fun r => cookie (rcore r)) no_cookie = [Some 7; None; None].
Proof.
  cbv zeta. split; [reflexivity|]. split; [exact no_cookie_writable|]. split.
  { apply Forall_forall. intros r Hr. apply in_map_iff in Hr as (y & <- & Hy). assert (G := two_good). rewrite Forall_forall in G. specialize (G y Hy). destruct (priority (rcore y) =? 0); exact G. }
  split.
  { intros r Hr P p. apply in_map_iff in Hr as (y & <- & Hy). assert (P' : priority (rcore y) = 0) by (destruct (priority (rcore y) =? 0); exact P). destruct (two_total y Hy P' p) as (x & Hx & Tx & Ax).
    eexists. split; [apply in_map; exact Hx|]. destruct (priority (rcore x) =? 0), (priority (rcore y) =? 0); split; assumption. }
  split; [eexists; split; [left; reflexivity|reflexivity]|]. split; [|reflexivity]. intros r [<-|[<-|[<-|[]]]]; (split; [cbn; lia|reflexivity]).
Qed.

Print Assumptions C94_convert_then_check.
Print Assumptions C94_routing_table.
