(** Theorems for C91: rules that compare equal, and rulesets written for Open vSwitch and read back. *)
From Coq Require Import Lia ZifyBool ZifyNat Permutation.
From Verif Require Import SpecTool SpecPipeline SpecOvs SpecLoad FormatProofs MatchProofs ActionProofs ActionSetProofs InstProofs MergeProofs SingleTableProofs PriorityProofs PathProofs ExecProofs PerOutputProofs EagerProofs EagerSem NormaliseProofs PropNormalise PropMerge PropSingle Tool ToolProofs PropTool
  Ovs Load PropOvs PropLoad Convert EqualRules.
Local Open Scope string_scope.
Local Open Scope list_scope.
Local Open Scope Z_scope.
Local Opaque NB WC_FULLWC layout oxm_fields registry_init.

(** ** Equal rules *)
Lemma good_wf reg o A : Forall (good_rule reg o) A -> forall R, In R A -> match_ok reg (rmatch (rcore R)) /\ inst_wf (inst (rcore R)).
Proof. intros F R HR. rewrite Forall_forall in F. destruct (F R HR) as ((H1 & H2 & _) & _). auto. Qed.
(** Rulesets of well-formed rules that compare equal one by one forward every packet alike. *)
Theorem C91_equal_rules_forward_alike : forall reg A B,
  (forall R, In R (A ++ B) -> match_ok reg (rmatch (rcore R)) /\ inst_wf (inst (rcore R))) ->
  Forall2 (fun a b => core_eqb (rcore a) (rcore b) = true) A B -> forall pick drop p xs, executes drop A p xs -> no_pbb_pair xs ->
  exists ys, executes drop B p ys /\ same_effect pick xs ys.
Proof.
  intros reg A B G E pick drop p xs X N. destruct (equal_executes reg reg A B (fun R H => G R (in_or_app _ _ _ (or_introl H))) (fun R H => G R (in_or_app _ _ _ (or_intror H))) E drop p xs X) as (ys & Y & T).
  exists ys. split; [exact Y|]. now apply teq_effect.
Qed.

Lemma full_canon c l : inst_wf (inst c) -> full_actions (inst c) = Ok l -> exists xs, al_ok l xs.
Proof.
  intros [H1 H2] E. unfold full_actions in E. destruct H2 as (H2 & _). destruct (al_add_ok _ _ _ _ _ H1 H2 E) as [H _]. eauto.
Qed.
Lemma canon_teq l m xs ys : al_ok l xs -> al_ok m ys -> teq (al_iter l) (al_iter m) -> al_iter l = al_iter m.
Proof.
  intros Hl Hm T. assert (E : al_eqb l m = true).
  { apply (al_eqb_iff _ _ _ _ Hl Hm). eapply te_trans; [apply (al_ok_iter _ _ Hl)|]. eapply te_trans; [exact T|]. apply ateq_sym, (al_ok_iter _ _ Hm). }
  unfold al_eqb in E. apply andb_true_iff in E as [_ E]. destruct (list_eq_dec act_eq_dec (al_iter l) (al_iter m)); [assumption|discriminate E].
Qed.
Lemma equal_total A B reg : (forall R, In R A -> match_ok reg (rmatch (rcore R)) /\ inst_wf (inst (rcore R))) -> (forall R, In R B -> match_ok reg (rmatch (rcore R)) /\ inst_wf (inst (rcore R))) ->
  equal_rules A B -> total_tables A -> total_tables B.
Proof.
  intros HA HB E T s Hs Ps p. destruct (equal_in_r _ _ E s Hs) as (r & Hr & Er). destruct (core_eqb_parts _ _ Er) as (P1 & _ & _ & _ & T1). destruct (T r Hr) with (p := p) as (x & Hx & Tx & Ax); [congruence|].
  destruct (equal_in_l _ _ E x Hx) as (y & Hy & Ey). destruct (core_eqb_parts _ _ Ey) as (_ & _ & _ & _ & T2). exists y. split; [exact Hy|]. split; [congruence|].
  exact (proj1 (equal_accepts reg reg A B HA HB x y Hx Hy Ey p p (fun i => eq_refl)) Ax).
Qed.
(** The single tables of such rulesets prescribe the same. *)
Lemma equal_single A B reg ra ra' SA rb rb' SB : rle reg ra -> reg_ok ra -> rle reg rb -> reg_ok rb -> Forall (good_rule reg true) A -> Forall (good_rule reg true) B -> total_tables A -> equal_rules A B ->
  to_single_table (sort_ruleset A) true ra = (ra', Ok SA) -> to_single_table (sort_ruleset B) true rb = (rb', Ok SB) ->
  (forall R, In R SB -> is_ok (rule_actions R) = true) -> forall p x, prescribes SA p x -> prescribes SB p x.
Proof.
  intros La Ha Lb Hb GA GB TA E EA EB OB p x. assert (TB := equal_total A B reg (good_wf _ _ _ GA) (good_wf _ _ _ GB) E TA).
  assert (GA' : Forall (good_rule ra true) (sort_ruleset A)) by (apply sort_good, (good_rules_mono reg); eauto).
  assert (GB' : Forall (good_rule rb true) (sort_ruleset B)) by (apply sort_good, (good_rules_mono reg); eauto).
  destruct (single_table_ok _ _ _ _ _ Ha GA' (sort_total _ TA) EA p) as (cA & MA & (out & XA) & SemA).
  destruct (single_table_ok _ _ _ _ _ Hb GB' (sort_total _ TB) EB p) as (cB & MB & _ & SemB).
  assert (WA : inst_wf (inst (rcore cA))). { destruct (single_tables _ _ _ _ _ Ha GA' EA) as (_ & G & _). unfold goods in G. rewrite Forall_forall in G. apply (G cA). apply (NormaliseProofs.first_match_in _ _ _ MA). }
  assert (WB : inst_wf (inst (rcore cB))). { destruct (single_tables _ _ _ _ _ Hb GB' EB) as (_ & G & _). unfold goods in G. rewrite Forall_forall in G. apply (G cB). apply (NormaliseProofs.first_match_in _ _ _ MB). }
  intros [[F _]|(c & d & F & Ed & ->)]; [assert (Y := first_match_unique _ _ _ _ MA F); discriminate Y|].
  assert (Y := first_match_unique _ _ _ _ MA F). injection Y as <-. right. exists cB, d. split; [exact MB|]. split; [|reflexivity].
  assert (OB' := OB cB (proj1 (NormaliseProofs.first_match_in _ _ _ MB))). unfold rule_actions in *.
  destruct (full_actions (inst (rcore cA))) as [la|] eqn:LA; [|discriminate Ed]. destruct (full_actions (inst (rcore cB))) as [lb|] eqn:LB; [|discriminate OB']. cbn [rbind] in *.
  assert (XA' := XA). rewrite sort_executes in XA'. destruct (equal_executes reg reg A B (good_wf _ _ _ GA) (good_wf _ _ _ GB) E false p out XA') as (out' & XB & T). rewrite <- sort_executes in XB.
  assert (T1 := SemA la out eq_refl XA). assert (T2 := SemB lb out' eq_refl XB).
  destruct (full_canon _ _ WA LA) as (xa & Ca). destruct (full_canon _ _ WB LB) as (xb & Cb).
  assert (Eq : al_iter la = al_iter lb). { eapply canon_teq; [exact Ca|exact Cb|]. eapply te_trans; [apply ateq_sym, T1|]. eapply te_trans; [exact T|exact T2]. }
  rewrite <- Ed. unfold per_output_actions, per_output_actions_pt. now rewrite Eq.
Qed.
(** check_equivalence prints such rulesets on the same line. *)
Theorem C91_equal_rules_same_line : forall SHIFT load o reg0 reg rulesets reg' lines ds, 0 < SHIFT -> SHIFT mod 2 = 0 ->
  load_all load o reg0 = (reg, Ok rulesets) -> reg_ok reg -> (forall n A, In (n, A) rulesets -> Forall (good_rule reg true) A) ->
  check_equivalence SHIFT load o reg0 = (reg', Ok (Lines lines ds)) ->
  forall a A b B, In (a, A) rulesets -> In (b, B) rulesets -> total_tables A -> Forall2 (fun a b => core_eqb (rcore a) (rcore b) = true) A B -> same_line lines a b.
Proof.
  intros SHIFT load o reg0 reg rulesets reg' lines ds Hs He L HR HG E a A b B HA HB TA EAB. destruct (load_names _ _ _ _ _ L) as [N1 _].
  apply (tool_run _ _ _ _ _ _ _ _ L) in E. apply compare_run in E as (w & gs & P & G & -> & _).
  destruct (run_known _ _ _ _ _ _ Hs He HR N1 (fun na H => HG (fst na) (snd na) ltac:(now destruct na)) P) as (ND & _ & F).
  destruct (forall2_find _ _ _ _ F HA) as ([a' ba] & Ia & [Ka (ra & ra' & SA & f & A1 & A2 & A3 & _ & _ & _ & _ & OA & Fa & Pa)]).
  destruct (forall2_find _ _ _ _ F HB) as ([b' bb] & Ib & [Kb (rb & rb' & SB & g & B1 & B2 & B3 & _ & _ & _ & _ & OB & Fb & Pb)]).
  cbn [fst snd] in *. subst a' b'. apply (same_line_iff (w_canon w) gs (a, ba) (b, bb)); auto.
  { rewrite <- (known_names _ _ _ _ _ _ F). exact N1. }
  apply (sem_equal (w_acts w) ba bb f g SA SB ND Fa Fb Pa Pb).
  assert (GA := HG a A HA). assert (GB := HG b B HB). assert (EBA := equal_sym A B EAB reg reg (good_wf _ _ _ GA) (good_wf _ _ _ GB)).
  assert (TB := equal_total A B reg (good_wf _ _ _ GA) (good_wf _ _ _ GB) EAB TA).
  intros p x. split; [exact (equal_single A B reg ra ra' SA rb rb' SB A1 A2 B1 B2 GA GB TA EAB A3 B3 OB p x)|exact (equal_single B A reg rb rb' SB ra ra' SA B1 B2 A1 A2 GB GA TB EBA B3 A3 OA p x)].
Qed.

(** ** Converting to Open vSwitch *)
Lemma made_wf c : made c -> match_ok registry_init (rmatch c) /\ inst_wf (inst c).
Proof.
  intros (items & xs & ws & M & A & W). split; [|now apply (inst_wf_of _ xs ws)].
  assert (K := match_append_all_ok items registry_init match_new reg_init_ok (match_new_ok _)). rewrite M in K. apply K.
Qed.
Lemma writable_made c : writable c -> made c.
Proof. intros (items & xs & ws & M & _ & A & W & _). exists items, xs, ws. auto. Qed.
Lemma equal_good o a b : core_eqb (rcore a) (rcore b) = true -> made (rcore b) -> good_rule registry_init o a -> good_rule registry_init o b.
Proof.
  intros E Mb ((Ma & Ia & Pa & Na) & P0 & T0 & Ga). destruct (made_wf _ Mb) as [Mb' Ib]. destruct (core_eqb_parts _ _ E) as (Ep & _ & Em & Ei & Et). destruct (inst_eqb_parts _ _ Ia Ib Ei) as (Eg & _ & Ea & _).
  split; [split; [exact Mb'|split; [exact Ib|split]]|].
  - unfold plain_inst, plain_acts in *. rewrite Forall_forall in *. intros x Hx. apply Pa. eapply Permutation_in; [apply Permutation_sym, ateq_perm, Ea|exact Hx].
  - intros Ho. specialize (Na Ho). unfold no_inner, mkeys in *. unfold match_eqb in Em. apply andb_true_iff in Em as [_ Em]. assert (I := dict_eqb_in _ _ (proj1 Ma) (proj1 Mb') Em).
    destruct (existsb ends_in_digit (map fst (m_items (rmatch (rcore b))))) eqn:X; [|reflexivity]. apply existsb_exists in X as (k & Hk & Dk). apply in_map_iff in Hk as (kv & <- & Hkv). apply I in Hkv.
    rewrite <- Na. symmetry. apply existsb_exists. exists (fst kv). split; [now apply in_map|exact Dk].
  - rewrite <- Ep, <- Et, <- Eg. auto.
Qed.
Lemma pipeline_from A t p d ws miss app wr : pipeline A t p d ws miss app wr -> forall a, In a (app ++ wr) ->
  In a (d ++ ws) \/ exists R, In R A /\ In a (orig_order (apply_actions (inst (rcore R))) ++ orig_order (write_actions (inst (rcore R)))).
Proof.
  assert (K : forall t p r, table_hit A t p r -> In r A). { intros t0 p0 r (l1 & l2 & -> & _). apply in_or_app. right. now left. }
  assert (K2 : forall i d ws a, In a (applied_after i d ++ writes_after i ws) -> In a (d ++ ws) \/ In a (orig_order (apply_actions i) ++ orig_order (write_actions i))).
  { intros i d0 ws0 a. unfold applied_after, writes_after. rewrite !in_app_iff. destruct (clear_actions i); cbn [In]; tauto. }
  intros H. induction H as [t p d ws r t' miss app wr H G P IH|t p d ws r H G|t p d ws H]; intros a Ha.
  - destruct (IH a Ha) as [X|X]; [|now right]. apply K2 in X as [X|X]; [now left|]. right. exists r. eauto.
  - apply K2 in Ha as [X|X]; [now left|]. right. exists r. eauto.
  - now left.
Qed.
Lemma executes_from drop A p xs : executes drop A p xs -> forall a, In a xs -> exists R, In R A /\ In a (orig_order (apply_actions (inst (rcore R))) ++ orig_order (write_actions (inst (rcore R)))).
Proof.
  intros (miss & app & wr & o & P & (_ & S & _) & ->) a Ha. destruct (pipeline_from _ _ _ _ _ _ _ _ P a) as [[]|X]; [|exact X].
  apply in_app_iff in Ha as [Ha|Ha]; apply in_or_app; [now left|right]. destruct (miss && drop); [destruct Ha|]. apply S in Ha. now apply winner_in.
Qed.
Lemma writable_no_pbb (c : core) a : writable c -> In a (orig_order (apply_actions (inst c)) ++ orig_order (write_actions (inst c))) -> is_pbb a = false.
Proof.
  intros (items & xs & ws & _ & _ & A & W & Fx & Fw & _) H. assert (K : writable_action a).
  { rewrite Forall_forall in Fx, Fw. apply al_of_ok in A as [A _]. rewrite A in H. apply in_app_iff in H as [H|H]; [now apply Fx|]. apply Fw.
    apply as_of_inv in W as (_ & _ & _ & W & _). apply W in H. now apply winner_in. }
  destruct a as [n v]. cbn in K. destruct K as [[K _]|[[K _]|[-> (f & k & -> & (w & K & _) & _)]]].
  - cbn in K. destruct K as [<-|[<-|[<-|[]]]]; reflexivity.
  - cbn in K. repeat destruct K as [<-|K]; try reflexivity. destruct K.
  - reflexivity.
Qed.
Lemma writable_no_pair A drop p xs : Forall writable (map rcore A) -> executes drop A p xs -> no_pbb_pair xs.
Proof.
  intros F X. assert (K : forall a, In a xs -> is_pbb a = false).
  { intros a Ha. destruct (executes_from _ _ _ _ X a Ha) as (R & HR & Hin). apply (writable_no_pbb (rcore R)); [|exact Hin]. rewrite Forall_forall in F. apply F. now apply in_map. }
  intros a b Ha Hb. unfold pbb_pair. now rewrite (K a Ha), (K b Hb).
Qed.

Lemma forall2_weaken {X Y} (R S : X -> Y -> Prop) : (forall x y, R x y -> S x y) -> forall l m, Forall2 R l m -> Forall2 S l m.
Proof. intros H l m F. induction F; constructor; auto. Qed.
Lemma forall2_map_l {X Y Z} (f : X -> Y) (R : Y -> Z -> Prop) l : forall m, Forall2 R (map f l) m -> Forall2 (fun x z => R (f x) z) l m.
Proof. induction l as [|x l IH]; intros m H; inversion H; subst; constructor; auto. Qed.
Lemma forall2_in_r {X Y} (R : X -> Y -> Prop) l m : Forall2 R l m -> forall y, In y m -> exists x, In x l /\ R x y.
Proof. induction 1 as [|x y l m H F IH]; intros z []; [subst; exists x; split; [now left|exact H]|]. destruct (IH z H0) as (w & W & Q). exists w. split; [now right|exact Q]. Qed.
Section Converted.
  Context (rs rs' : list rule) (Hw : Forall writable (map rcore rs)) (E : Forall2 (fun a b => core_eqb (rcore a) (rcore b) = true /\ made (rcore b)) rs rs').
  Lemma cv_equal : equal_rules rs rs'.
  Proof. clear Hw. unfold equal_rules. eapply forall2_weaken; [|exact E]. cbn beta. tauto. Qed.
  Lemma cv_wf R : In R (rs ++ rs') -> match_ok registry_init (rmatch (rcore R)) /\ inst_wf (inst (rcore R)).
  Proof.
    intros H. apply made_wf. apply in_app_iff in H as [H|H]; [apply writable_made; rewrite Forall_forall in Hw; apply Hw; now apply in_map|].
    destruct (forall2_in_r _ _ _ E R H) as (x & _ & _ & M). exact M.
  Qed.
  Lemma cv_alike pick drop p : (forall xs, executes drop rs p xs -> exists ys, executes drop rs' p ys /\ same_effect pick xs ys) /\
    (forall ys, executes drop rs' p ys -> exists xs, executes drop rs p xs /\ same_effect pick xs ys).
  Proof.
    assert (W1 : forall R, In R rs -> match_ok registry_init (rmatch (rcore R)) /\ inst_wf (inst (rcore R))) by (intros R H; apply cv_wf, in_or_app; now left).
    assert (W2 : forall R, In R rs' -> match_ok registry_init (rmatch (rcore R)) /\ inst_wf (inst (rcore R))) by (intros R H; apply cv_wf, in_or_app; now right).
    split; intros xs X.
    - destruct (equal_executes _ _ _ _ W1 W2 cv_equal drop p xs X) as (ys & Y & T). exists ys. split; [exact Y|]. apply teq_effect; [exact T|]. now apply (writable_no_pair rs drop p).
    - destruct (equal_executes _ _ _ _ W2 W1 (equal_sym _ _ cv_equal _ _ W1 W2) drop p xs X) as (ys & Y & T). exists ys. split; [exact Y|]. apply teq_effect; [now apply ateq_sym|]. now apply (writable_no_pair rs drop p).
  Qed.
  Lemma cv_good o : Forall (good_rule registry_init o) rs -> Forall (good_rule registry_init o) rs'.
  Proof. clear Hw. rewrite !Forall_forall. intros G x Hx. destruct (forall2_in_r _ _ _ E x Hx) as (y & Hy & Ey & My). apply (equal_good o y x); auto. Qed.
End Converted.
(** What convert_ruleset -o ovs writes is read back as rules that are equal one by one and forward
    every packet alike. *)
Theorem C91_converted : forall json pickle other name rest source fmt reg r rs, load_ruleset json pickle name rest source fmt reg = (r, Ok rs) -> Forall writable (map rcore rs) ->
  exists out rs', convert_ruleset json pickle other name rest source fmt "ovs" reg = (r, Ok (Some out)) /\
  (forall json' pickle' name' rest', load_ruleset json' pickle' name' rest' out "ovs" registry_init = (registry_init, Ok rs')) /\
  Forall2 (fun a b => core_eqb (rcore a) (rcore b) = true) rs rs' /\
  (forall pick drop p, (forall xs, executes drop rs p xs -> exists ys, executes drop rs' p ys /\ same_effect pick xs ys) /\
    (forall ys, executes drop rs' p ys -> exists xs, executes drop rs p xs /\ same_effect pick xs ys)).
Proof.
  intros json pickle other name rest source fmt reg r rs L W. destruct (C78_named_ovs json pickle name rest _ W) as (out & rs' & E1 & E2 & E3). exists out, rs'. split; [|split; [|split]].
  - unfold convert_ruleset, sbind. rewrite L. unfold slift, save_ruleset. cbn [writer_of String.eqb Ascii.eqb Bool.eqb write_with]. now rewrite E1.
  - intros json' pickle' name' rest'. rewrite <- E2. reflexivity.
  - apply forall2_map_l in E3. apply (cv_equal rs rs'). eapply forall2_weaken; [|exact E3]. cbn beta. tauto.
  - intros pick drop p. apply (cv_alike rs rs' W). apply forall2_map_l in E3. eapply forall2_weaken; [|exact E3]. cbn beta. tauto.
Qed.
(** check_equivalence, given the loaded rules and the converted ones, prints them on one line. *)
Theorem C91_converted_same_line : forall json pickle other name rest source fmt r rs, load_ruleset json pickle name rest source fmt registry_init = (r, Ok rs) ->
  Forall writable (map rcore rs) -> Forall (good_rule registry_init true) rs -> total_tables rs ->
  exists out rs', convert_ruleset json pickle other name rest source fmt "ovs" registry_init = (r, Ok (Some out)) /\
  (forall json' pickle' name' rest', load_ruleset json' pickle' name' rest' out "ovs" registry_init = (registry_init, Ok rs')) /\
  forall SHIFT files o a b reg reg' lines ds, 0 < SHIFT -> SHIFT mod 2 = 0 -> reg_ok reg -> rle registry_init reg ->
  load_all files o registry_init = (reg, Ok [(a, rs); (b, rs')]) -> check_equivalence SHIFT files o registry_init = (reg', Ok (Lines lines ds)) -> same_line lines a b.
Proof.
  intros json pickle other name rest source fmt r rs L W G T. destruct (C78_named_ovs json pickle name rest _ W) as (out & rs' & E1 & E2 & E3). exists out, rs'. split; [|split].
  - unfold convert_ruleset, sbind. rewrite L. unfold slift, save_ruleset. cbn [writer_of String.eqb Ascii.eqb Bool.eqb write_with]. now rewrite E1.
  - intros json' pickle' name' rest'. rewrite <- E2. reflexivity.
  - intros SHIFT files o a b reg reg' lines ds Hs He Hr Hl Hf Hc. apply forall2_map_l in E3.
    assert (E3' : Forall2 (fun a b => core_eqb (rcore a) (rcore b) = true /\ made (rcore b)) rs rs') by (eapply forall2_weaken; [|exact E3]; cbn beta; tauto).
    refine (C91_equal_rules_same_line SHIFT files o registry_init reg _ reg' lines ds Hs He Hf Hr _ Hc a rs b rs' (or_introl eq_refl) (or_intror (or_introl eq_refl)) T (cv_equal rs rs' E3')).
    intros n A [X|[X|[]]]; injection X as <- <-; apply (good_rules_mono registry_init _ _ _ Hl); [exact G|]. now apply (cv_good rs rs').
Qed.

(** *** Examples *)
Definition ovs_rule (prio tbl : Z) (items : list (string * (Z * option Z))) (xs : list action) (g : option Z) : rule :=
  mkRule (mkCore prio (Some 7) (mk_match items) (mk_full xs [] g false None) tbl) [].
Definition two_tables : list rule :=
  [ovs_rule 10 0 [("ETH_TYPE", (0x800, None)); ("IPV4_DST", (0x0a000000, Some 0xff000000))] [("DEC_NW_TTL", VNone); ("SET_FIELD", VSet "ETH_DST" 0x0a0b0c0d0e0f)] (Some 1);
   ovs_rule 0 0 [] [OUTPUT 4] None; ovs_rule 0 1 [] [OUTPUT 3] None].
Local Ltac member := cbn; tauto.
Local Ltac fits := eexists; split; [member|vm_compute; split; [discriminate|reflexivity]].
Local Ltac action :=
  first [left; split; [member|reflexivity] | right; left; split; [member|eexists; split; [reflexivity|vm_compute; discriminate]]
        | right; right; split; [reflexivity|do 2 eexists; split; [reflexivity|split; [fits|first [discriminate|intros _; vm_compute; reflexivity]]]]].
Lemma two_writable : Forall writable (map rcore two_tables).
Proof.
  repeat apply Forall_cons; try apply Forall_nil.
  - exists [("ETH_TYPE", (0x800, None)); ("IPV4_DST", (0x0a000000, Some 0xff000000))], [("DEC_NW_TTL", VNone); ("SET_FIELD", VSet "ETH_DST" 0x0a0b0c0d0e0f)], [].
    split; [vm_compute; reflexivity|]. split; [|split; [vm_compute; reflexivity|split; [vm_compute; reflexivity|]]].
    + match goal with |- Forall _ ?l => let l' := eval vm_compute in l in change l with l' end. repeat constructor; fits.
    + split; [repeat apply Forall_cons; try apply Forall_nil; action|]. split; [constructor|]. split; [exists 7; split; [reflexivity|vm_compute; discriminate]|]. repeat split; vm_compute; discriminate.
  - exists [], [OUTPUT 4], []. split; [vm_compute; reflexivity|]. split; [vm_compute; constructor|]. split; [vm_compute; reflexivity|]. split; [vm_compute; reflexivity|].
    split; [repeat apply Forall_cons; try apply Forall_nil; action|]. split; [constructor|]. split; [exists 7; split; [reflexivity|vm_compute; discriminate]|]. repeat split; vm_compute; discriminate.
  - exists [], [OUTPUT 3], []. split; [vm_compute; reflexivity|]. split; [vm_compute; constructor|]. split; [vm_compute; reflexivity|]. split; [vm_compute; reflexivity|].
    split; [repeat apply Forall_cons; try apply Forall_nil; action|]. split; [constructor|]. split; [exists 7; split; [reflexivity|vm_compute; discriminate]|]. repeat split; vm_compute; discriminate.
Qed.
Lemma ovs_rule_good o prio tbl items xs g : good_rule registry_init o (mk_r prio tbl items (mk_full xs [] g false None)) -> good_rule registry_init o (ovs_rule prio tbl items xs g).
Proof. exact (fun H => H). Qed.
Lemma two_good : Forall (good_rule registry_init true) two_tables.
Proof. repeat apply Forall_cons; try apply Forall_nil; apply ovs_rule_good, mk_good; vm_compute; reflexivity. Qed.
Lemma two_total : total_tables two_tables.
Proof.
  intros r [<-|[<-|[<-|[]]]] P p; [discriminate P|..].
  - exists (nth 1 two_tables (r37 0 0)). split; [right; left; reflexivity|]. split; [reflexivity|]. now apply def_accepts.
  - exists (nth 2 two_tables (r37 0 0)). split; [right; right; left; reflexivity|]. split; [reflexivity|]. now apply def_accepts.
Qed.
Definition no_pickle : st (list rule) := fun r => (r, Err ValueError).
Definition two_json : st (list rule) := sret two_tables.
Definition nothing_else (w : writer) (rs : list rule) : result text := Err NotImplementedError.
Definition two_text : text := match snd (convert_ruleset two_json no_pickle nothing_else (T "a.json") [] [] "ryu_json" "ovs" registry_init) with Ok (Some f) => f | _ => [] end.
Example C91_ex_text : S_ two_text = ("cookie=0x7, table=0, priority=10,eth_type=0x800,ip_dst=10.0.0.0/255.0.0.0 actions=dec_ttl,set_field:0a:0b:0c:0d:0e:0f->eth_dst,goto_table:1" ++ String newline
  "cookie=0x7, table=0, priority=0, actions=output:4" ++ String newline "cookie=0x7, table=1, priority=0, actions=output:3" ++ String newline "")%string.
Proof. vm_compute. reflexivity. Qed.
Definition two_files (name fmt : string) : st (list rule) :=
  if String.eqb name "a" then load_ruleset two_json no_pickle (T "a") [] [] "ryu_json" else load_ruleset no_pickle no_pickle (T name) [] two_text fmt.
Definition two_back : list rule := match snd (two_files "b" "ovs" registry_init) with Ok rs => rs | Err _ => [] end.
Lemma two_process n rs w : In rs [two_tables; two_back] -> Forall (good_rule registry_init true) rs -> exists w', process 30 false w (n, rs) registry_init = (registry_init, Ok w').
Proof.
  intros H G. assert (K : match to_single_table (sort_ruleset rs) true registry_init with (r, Ok s) => r = registry_init /\ forallb (fun c => is_ok (rule_actions c)) s = true /\ one_table s = true | _ => False end)
    by (destruct H as [<-|[<-|[]]]; vm_compute; auto).
  assert (E : exists s, to_single_table (sort_ruleset rs) true registry_init = (registry_init, Ok s) /\ forallb (fun c => is_ok (rule_actions c)) s = true /\ one_table s = true).
  { destruct (to_single_table (sort_ruleset rs) true registry_init) as [r [s|]]; [|destruct K]. destruct K as (-> & K). exists s. auto. }
  destruct E as (s & E & A).
  unfold process, sbind, slift, sret. cbn [fst snd]. rewrite E. destruct (single_tables _ _ _ _ _ reg_init_ok (sort_good _ _ _ G) E) as (_ & Gs & _).
  destruct (norm_total 30 registry_init (w_acts w) s) as (a & b & Q).
  - intros c Hc. unfold goods in Gs. rewrite Forall_forall in Gs. apply (Gs c Hc).
  - apply forallb_forall, A.
  - apply A.
  - rewrite Q. eauto.
Qed.
(** The command check_equivalence on a file and its conversion: it returns, with one line. *)
Example C91_ex : let o := mkOptions [] (fun f => if String.eqb f "ryu_json" then ["a"] else if String.eqb f "ovs" then ["b"] else []) false false in
  Forall writable (map rcore two_tables) /\ Forall (good_rule registry_init true) two_tables /\ total_tables two_tables /\
  load_all two_files o registry_init = (registry_init, Ok [("a", two_tables); ("b", two_back)]) /\
  exists lines, check_equivalence 30 two_files o registry_init = (registry_init, Ok (Lines lines [])) /\ same_line lines "a" "b".
Proof.
  set (o := mkOptions _ _ _ _). cbv zeta. split; [exact two_writable|]. split; [exact two_good|]. split; [exact two_total|].
  destruct (C91_converted_same_line two_json no_pickle nothing_else (T "a.json") [] [] "ryu_json" registry_init two_tables eq_refl two_writable two_good two_total) as (out & rs' & E1 & E2 & E3).
  assert (Eo : two_text = out) by (unfold two_text; now rewrite E1).
  assert (Eb : two_files "b" "ovs" registry_init = (registry_init, Ok rs')).
  { unfold two_files. cbn [String.eqb Ascii.eqb Bool.eqb]. rewrite Eo. apply E2. }
  assert (Er : two_back = rs') by (unfold two_back; now rewrite Eb).
  assert (L : load_all two_files o registry_init = (registry_init, Ok [("a", two_tables); ("b", two_back)])).
  { unfold load_all. change (jobs o) with [("a", "ryu_json"); ("b", "ovs")]. cbn [sfold]. unfold sbind at 1. unfold load_into at 1. unfold sbind at 1. cbn [fst snd].
    change (two_files "a" "ryu_json" registry_init) with (registry_init, @Ok (list rule) two_tables). unfold sret at 1. cbn iota beta. unfold sbind at 1, load_into, sbind at 1. cbn [fst snd]. rewrite Eb, Er. reflexivity. }
  split; [exact L|]. assert (Gb : Forall (good_rule registry_init true) two_back).
  { apply (cv_good two_tables two_back); [|exact two_good]. destruct (C78_named_ovs two_json no_pickle (T "a.json") [] _ two_writable) as (out' & rs2 & F1 & F2 & F3).
    assert (X : out' = out). { unfold convert_ruleset, sbind in E1. cbn [load_ruleset String.eqb Ascii.eqb Bool.eqb load two_json sret slift] in E1. unfold slift, save_ruleset in E1. cbn [writer_of String.eqb Ascii.eqb Bool.eqb write_with] in E1. rewrite F1 in E1. cbn in E1. now injection E1. }
    subst out'. rewrite E2 in F2. injection F2 as <-. rewrite Er. apply forall2_map_l in F3. eapply forall2_weaken; [|exact F3]. cbn beta. tauto. }
  assert (R : exists lines, check_equivalence 30 two_files o registry_init = (registry_init, Ok (Lines lines []))).
  { unfold check_equivalence, sbind at 1. rewrite L. unfold compare_rulesets, sbind at 1. cbn [op_dc op_difference o]. cbn [sfold]. unfold sbind at 1.
    destruct (two_process "a" two_tables (mkWork acts_init [] []) ltac:(now left) two_good) as (w1 & ->). unfold sbind at 1. destruct (two_process "b" two_back w1 ltac:(right; now left) Gb) as (w & ->).
    unfold sbind, slift, sret. destruct (C23_grouping_is_exact string (w_canon w)) as (gs & -> & _). eauto. }
  destruct R as (lines & R). exists lines. split; [exact R|]. rewrite Er in L. exact (E3 30 two_files o "a" "b" registry_init registry_init lines [] ltac:(lia) eq_refl reg_init_ok (rle_refl _) L R).
Qed.
(** Equal rules need not be the same rules. *)
Example C91_ex_equal : core_eqb (mk_core 1 0 [("ETH_TYPE", (0x800, None)); ("IP_PROTO", (6, None))] [("SET_FIELD", VSet "ETH_DST" 1); ("SET_FIELD", VSet "ETH_SRC" 2); OUTPUT 1])
    (mk_core 1 0 [("IP_PROTO", (6, None)); ("ETH_TYPE", (0x800, None))] [("SET_FIELD", VSet "ETH_SRC" 2); ("SET_FIELD", VSet "ETH_DST" 1); OUTPUT 1]) = true /\
  mk_match [("ETH_TYPE", (0x800, None)); ("IP_PROTO", (6, None))] <> mk_match [("IP_PROTO", (6, None)); ("ETH_TYPE", (0x800, None))].
Proof. split; vm_compute; [reflexivity|discriminate]. Qed.

Print Assumptions C91_equal_rules_forward_alike.
Print Assumptions C91_equal_rules_same_line.
Print Assumptions C91_converted.
Print Assumptions C91_converted_same_line.
