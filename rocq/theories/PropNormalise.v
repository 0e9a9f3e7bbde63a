(** Theorems for C20-C24 and C61: normalisation to a canonical form and comparison. *)
From Verif Require Import NormaliseProofs EagerProofs PerOutputProofs.
From Verif Require SpecEager SingleTableProofs EagerSem.
From Coq Require Import Permutation Sorted.
Local Open Scope string_scope.
Local Open Scope list_scope.
Local Open Scope Z_scope.
Local Opaque NB WC_FULLWC.

(** Example material: rules over the one-bit field MPLS_BOS and over VLAN_VID. *)
Definition OUTPUT (n : Z) : action := ("OUTPUT", VInt n).
Definition SETF (f : string) (v : Z) : action := ("SET_FIELD", VSet f v).
Definition mk_match (items : list (string * (Z * option Z))) : Match := snd (match_append_all registry_init match_new items).
Definition mk_inst (acts : list action) : instructions :=
  mkInst None (match al_of acts with Ok l => l | Err _ => al_empty end) al_empty None false None.
Definition mk_core (prio tbl : Z) (items : list (string * (Z * option Z))) (acts : list action) : core :=
  mkCore prio None (mk_match items) (mk_inst acts) tbl.
Definition mk_rule (prio tbl : Z) (items : list (string * (Z * option Z))) (acts : list action) : rule :=
  mkRule (mk_core prio tbl items acts) [mk_core prio tbl items acts].
Definition ex_A : list rule :=
  [mk_rule 30 0 [("MPLS_BOS", (1, None))] [OUTPUT 1]; mk_rule 20 0 [("MPLS_BOS", (0, None)); ("VLAN_VID", (4097, None))] [OUTPUT 2]; mk_rule 0 0 [] []].
Definition ex_B : list rule :=
  [mk_rule 30 0 [("VLAN_VID", (4097, None))] [SETF "ETH_DST" 5; OUTPUT 1]; mk_rule 0 0 [] []].

Lemma mk_match_ok items : forallb (fun it => match dict_get registry_init (fst it) with Some _ => true | None => false end) items = true ->
  match_ok registry_init (mk_match items).
Proof.
  intros H. unfold mk_match.
  assert (P : forall items m, forallb (fun it => match dict_get registry_init (fst it) with Some _ => true | None => false end) items = true ->
    match_ok registry_init m -> exists m', match_append_all registry_init m items = (registry_init, m') /\ match_ok registry_init m').
  { clear. induction items as [|[n [v mk]] items IH]; intros m H Hm; cbn [match_append_all]; [eauto|]. cbn [forallb fst] in H.
    apply andb_true_iff in H as [H1 H2]. assert (X := match_append_ok registry_init m n v mk reg_init_ok Hm).
    assert (Y : fst (match_append registry_init m n v mk) = registry_init).
    { unfold match_append, oxm_name_to_id. destruct (dict_get registry_init n) as [[i b]|] eqn:E; [|discriminate H1].
      cbn [fst]. rewrite E. destruct (append_norm b v mk); reflexivity. }
    destruct (match_append registry_init m n v mk) as [r' m']. cbn [fst] in Y. subst r'. destruct X as (_ & X & _). now apply IH. }
  destruct (P items match_new H (match_new_ok _)) as (m' & -> & Hm). exact Hm.
Qed.

Definition all_ok (rules : list rule) : Prop :=
  rules_ok registry_init rules /\ (forall r, In r rules -> is_ok (rule_actions r) = true) /\ (forall x y, In x rules -> In y rules -> table (rcore x) = table (rcore y)).
Lemma one_table_spec rules : one_table rules = true <-> (forall x y, In x rules -> In y rules -> table (rcore x) = table (rcore y)).
Proof.
  destruct rules as [|r rules]; cbn [one_table]; [split; [intros _ x y []|reflexivity]|]. rewrite forallb_forall. split.
  - intros H x y Hx Hy. assert (E : forall z, In z (r :: rules) -> table (rcore z) = table (rcore r)) by (intros z [<-|Hz]; [reflexivity|now apply Z.eqb_eq, H]).
    rewrite (E x), (E y); auto.
  - intros H x Hx. apply Z.eqb_eq. apply H; [now right|now left].
Qed.
Lemma ex_A_ok : all_ok ex_A.
Proof.
  split; [intros r [<-|[<-|[<-|[]]]]; apply mk_match_ok; reflexivity|]. split; [intros r [<-|[<-|[<-|[]]]]; vm_compute; reflexivity|].
  intros x y Hx Hy. destruct Hx as [<-|[<-|[<-|[]]]], Hy as [<-|[<-|[<-|[]]]]; reflexivity.
Qed.
Lemma ex_B_ok : all_ok ex_B.
Proof.
  split; [intros r [<-|[<-|[]]]; apply mk_match_ok; reflexivity|]. split; [intros r [<-|[<-|[]]]; vm_compute; reflexivity|].
  intros x y Hx Hy. destruct Hx as [<-|[<-|[]]], Hy as [<-|[<-|[]]]; reflexivity.
Qed.

(** ** C20 *)
(** normalise_naive: every packet is mapped to what the first matching rule prescribes. *)
Theorem C20_naive_is_first_match : forall SHIFT reg acts rules, 0 < SHIFT -> SHIFT mod 2 = 0 -> NoDup acts ->
  rules_ok reg rules -> (forall x y, In x rules -> In y rules -> table (rcore x) = table (rcore y)) ->
  (forall r, In r rules -> is_ok (rule_actions r) = true) ->
  exists acts' b, normalise_naive SHIFT None acts rules = Ok (acts', b) /\
    add_wf 0 b /\ NoDup acts' /\ (exists ext, acts' = acts ++ ext) /\
    forall p, exists o, prescribes rules p o /\ term_to_action acts' (adenote b p) = Ok (option_map FAct o).
Proof.
  intros SHIFT reg acts rules Hs He N H T A. apply one_table_spec in T.
  destruct (naive_first_match SHIFT Hs He reg rules acts H A T N) as (acts' & b & f & E & X & N' & [W S] & P).
  exists acts', b. split; [exact E|]. split; [auto|]. split; [auto|]. split; [auto|]. intros p. exists (f p). split; [apply P|apply S].
Qed.
(** What a table prescribes for a packet is unique. *)
Theorem C20_prescription_unique : forall rules p o1 o2, prescribes rules p o1 -> prescribes rules p o2 -> o1 = o2.
Proof. exact prescribes_unique. Qed.
(** Rules of more than one table are rejected. *)
Theorem C20_mixed_tables_rejected : forall SHIFT mr acts rules, ~ (forall x y, In x rules -> In y rules -> table (rcore x) = table (rcore y)) ->
  normalise_naive SHIFT mr acts rules = Err AssertionError /\ normalise_dc SHIFT mr acts rules = Err AssertionError.
Proof.
  intros SHIFT mr acts rules H. unfold normalise_naive, normalise_dc. destruct (one_table rules) eqn:E; [|auto]. elim H. now apply one_table_spec.
Qed.
Example C20_ex : all_ok ex_A /\ rule_actions (hd (mk_rule 0 0 [] []) ex_A) = Ok [(1, [OUTPUT 1])].
Proof. split; [exact ex_A_ok|vm_compute; reflexivity]. Qed.
Print Assumptions C20_naive_is_first_match.
Print Assumptions C20_prescription_unique.
Print Assumptions C20_mixed_tables_rejected.

(** ** C21 *)
(** In both modes, for every list of at least one rule, and whether or not it succeeds. *)
Theorem C21_divide_and_conquer_agrees : forall SHIFT mr reg rules acts, 0 < SHIFT -> SHIFT mod 2 = 0 -> rules_ok reg rules -> rules <> [] -> NoDup acts ->
  normalise_dc SHIFT mr acts rules = normalise_naive SHIFT mr acts rules.
Proof. exact dc_agrees_any. Qed.
Theorem C21_empty_ruleset : forall SHIFT mr acts,
  normalise_dc SHIFT mr acts [] = Err AssertionError /\ normalise_naive SHIFT mr acts [] = Ok (acts, BK).
Proof. intros. split; reflexivity. Qed.
(** The merge loop itself: the number of rounds is bounded by the number of BDDs. *)
Theorem C21_merge_loop_terminates : forall bs, merge_all (List.length bs) bs <> Err OutOfFuel.
Proof.
  assert (P : forall fuel bs, (List.length bs <= S fuel)%nat -> merge_all fuel bs <> Err OutOfFuel).
  { induction fuel as [|n IH]; intros [|a [|b bs]] L; cbn [merge_all]; try discriminate.
    - cbn in L. lia.
    - destruct (pair_up_length 30 a b bs) as [H _]. apply IH. lia. }
  intros bs. apply P. lia.
Qed.
Example C21_ex : all_ok ex_A /\ ex_A <> [] /\ (* an odd number of BDDs: two melds, then one *)
  merge_all 3 [ANode 1583 (AConst 2) BK; ANode 1582 (AConst 3) BK; AConst 4] =
  Ok (ANode 1582 (ANode 1583 (AConst 2) (AConst 3)) (ANode 1583 (AConst 2) (AConst 4))).
Proof. split; [exact ex_A_ok|]. split; [discriminate|]. vm_compute. reflexivity. Qed.
Print Assumptions C21_divide_and_conquer_agrees.
Print Assumptions C21_empty_ruleset.
Print Assumptions C21_merge_loop_terminates.

(** ** C22 *)
Theorem C22_check_equal_decides : forall SHIFT reg A B acts a1 ba a2 bb, 0 < SHIFT -> SHIFT mod 2 = 0 ->
  rules_ok reg A -> rules_ok reg B -> NoDup acts ->
  normalise_naive SHIFT None acts A = Ok (a1, ba) -> normalise_naive SHIFT None a1 B = Ok (a2, bb) ->
  (check_equal_exact ba bb = true <-> forall p o, prescribes A p o <-> prescribes B p o).
Proof. intros SHIFT reg A B acts a1 ba a2 bb Hs He. now apply check_equal_decides. Qed.
(** The same with the default (divide and conquer) normaliser. *)
Theorem C22_check_equal_decides_dc : forall SHIFT reg A B acts a1 ba a2 bb, 0 < SHIFT -> SHIFT mod 2 = 0 ->
  rules_ok reg A -> rules_ok reg B -> NoDup acts ->
  normalise_dc SHIFT None acts A = Ok (a1, ba) -> normalise_dc SHIFT None a1 B = Ok (a2, bb) ->
  (check_equal_exact ba bb = true <-> forall p o, prescribes A p o <-> prescribes B p o).
Proof.
  intros SHIFT reg A B acts a1 ba a2 bb Hs He HA HB N EA EB.
  assert (NA : A <> []) by (intros ->; discriminate EA). assert (NB' : B <> []) by (intros ->; discriminate EB).
  rewrite (dc_agrees_any SHIFT None reg A acts Hs He HA NA N) in EA.
  assert (N1 : NoDup a1).
  { destruct (all_entries None A) as [es|e] eqn:E; [|rewrite naive_eq, E in EA; destruct (one_table A); discriminate EA].
    destruct (entries_ok None reg A HA es E) as [W _]. eapply naive_sem in EA as (_ & X & _); eauto. }
  rewrite (dc_agrees_any SHIFT None reg B a1 Hs He HB NB' N1) in EB. now apply (check_equal_decides SHIFT Hs He reg A B acts a1 ba a2 bb).
Qed.
(** Tables found equal forward alike: on every packet that hits rules with plain actions (see
    C30) the same copies leave on the same ports. *)
Theorem C22_equal_tables_forward_alike : forall SHIFT reg A B acts a1 ba a2 bb, 0 < SHIFT -> SHIFT mod 2 = 0 ->
  rules_ok reg A -> rules_ok reg B -> NoDup acts ->
  normalise_naive SHIFT None acts A = Ok (a1, ba) -> normalise_naive SHIFT None a1 B = Ok (a2, bb) -> check_equal_exact ba bb = true ->
  forall pick p rA rB xs ys, first_match A p (Some rA) -> first_match B p (Some rB) ->
  SpecEager.built rA -> SpecEager.built rB -> SpecEager.runs_actions rA xs -> SpecEager.runs_actions rB ys ->
  Forall wf_act xs -> Forall wf_act ys -> NoDup (ports xs) -> NoDup (ports ys) ->
  forall q, same_outs (run_out pick xs q) (run_out pick ys q).
Proof.
  intros SHIFT reg A B acts a1 ba a2 bb Hs He HA HB N EA EB C pick p rA rB xs ys FA FB (xs0 & ws0 & BA1 & BA2) (ys0 & vs0 & BB1 & BB2) EX EY WX WY NX NY.
  assert (D := proj1 (check_equal_decides SHIFT Hs He reg A B acts a1 ba a2 bb HA HB N EA EB) C).
  assert (OA : is_ok (rule_actions rA) = true).
  { destruct (rule_actions rA) as [d|e] eqn:E; [reflexivity|]. destruct (first_match_in _ _ _ FA) as [I _].
    assert (X := naive_err_actions SHIFT A acts rA e I E). rewrite EA in X. discriminate X. }
  destruct (rule_actions rA) as [d|e] eqn:E; [clear OA|discriminate OA].
  assert (PA : prescribes A p (Some d)) by (right; exists rA, d; auto). apply D in PA as [[_ X]|(rB' & d' & F' & E' & X)]; [discriminate X|].
  injection X as <-. assert (Y := first_match_unique _ _ _ _ FB F'). injection Y as <-.
  unfold rule_actions in E, E'. destruct (full_actions (inst (rcore rA))) as [la|] eqn:LA; [|discriminate E].
  destruct (full_actions (inst (rcore rB))) as [lb|] eqn:LB; [|discriminate E']. cbn [rbind] in E, E'.
  assert (TA := EagerSem.runs_teq rA xs la (SingleTableProofs.inst_wf_of _ _ _ BA1 BA2) EX LA).
  assert (TB := EagerSem.runs_teq rB ys lb (SingleTableProofs.inst_wf_of _ _ _ BB1 BB2) EY LB).
  eapply (per_output_teq_eq pick xs ys la lb); eauto. reflexivity.
Qed.
Lemma mk_runs prio tbl items acts l : is_ok (al_of acts) = true -> SpecEager.runs_actions (mk_rule prio tbl items acts) l <-> l = acts.
Proof.
  intros H. unfold SpecEager.runs_actions. cbn [inst rcore mk_rule mk_core mk_inst apply_actions write_actions].
  assert (E : orig_order match al_of acts with Ok l0 => l0 | Err _ => al_empty end = acts).
  { destruct (al_of acts) as [a|e] eqn:E; [|discriminate H]. apply (al_of_ok acts a E). }
  rewrite E. change (orig_order al_empty) with (@nil action). split.
  - intros (o & (N & W & _) & ->). destruct o as [|a o]; [now rewrite app_nil_r|]. exfalso. assert (X := proj1 (W a) (or_introl eq_refl)).
    unfold SpecSet.winner in X. destruct (SpecSet.slot_of a); discriminate X.
  - intros ->. exists []. split; [|now rewrite app_nil_r]. split; [constructor|]. split; [|constructor]. intros a. split; [intros []|].
    unfold SpecSet.winner. destruct (SpecSet.slot_of a); discriminate.
Qed.
Lemma mk_built prio tbl items acts : is_ok (al_of acts) = true -> SpecEager.built (mk_rule prio tbl items acts).
Proof.
  intros H. destruct (al_of acts) as [l|] eqn:E; [|discriminate H]. exists acts, []. cbn [inst rcore mk_rule mk_core mk_inst apply_actions write_actions].
  split; [now rewrite E|reflexivity].
Qed.
Example C22_ex : all_ok ex_A /\ all_ok ex_B /\ NoDup acts_init /\
  (forall r, In r ex_A \/ In r ex_B -> SpecEager.built r) /\
  SpecEager.runs_actions (hd (mk_rule 0 0 [] []) ex_B) [SETF "ETH_DST" 5; OUTPUT 1].
Proof.
  split; [exact ex_A_ok|]. split; [exact ex_B_ok|]. split; [repeat constructor; intros []|]. split.
  - intros r [H|H]; repeat (destruct H as [<-|H]; [apply mk_built; vm_compute; reflexivity|]); destruct H.
  - apply mk_runs; vm_compute; reflexivity.
Qed.
Print Assumptions C22_check_equal_decides.
Print Assumptions C22_check_equal_decides_dc.
Print Assumptions C22_equal_tables_forward_alike.

(** ** C23 *)
(** Every ruleset is on exactly one line (the lines together are a permutation of the input),
    no line is empty, rulesets on one line have the same canonical form and rulesets on
    different lines have different ones; the loop terminates. *)
Theorem C23_grouping_is_exact : forall (N : Type) (l : list (N * add)),
  exists gs, group_equal l = Ok gs /\ Permutation l (List.concat gs) /\ (forall g, In g gs -> g <> []) /\
    (forall g x y, In g gs -> In x g -> In y g -> snd x = snd y) /\
    (forall before g1 mid g2 after x y, gs = before ++ g1 :: mid ++ g2 :: after -> In x g1 -> In y g2 -> snd x <> snd y).
Proof.
  intros N l. destruct (group_loop_ok (List.length l) l (le_n _)) as (gs & E & P & S). exists gs. split; [exact E|]. split; [auto|]. clear E P.
  split; [|split].
  - induction S as [|c g gs Hn Hc Hd S IH]; [intros g []|]. intros g' [<-|H]; auto.
  - induction S as [|c g gs Hn Hc Hd S IH]; [intros g x y []|]. intros g' x y [<-|H] Hx Hy; [rewrite (Hc x Hx), (Hc y Hy); auto|eauto].
  - induction S as [|c g gs Hn Hc Hd S IH]; intros before g1 mid g2 after x y E Hx Hy; [destruct before; discriminate E|].
    destruct before as [|b before]; injection E as E1 E2.
    + subst g1 gs. rewrite (Hc x Hx). intros X. apply (Hd g2 y); auto. apply in_app_iff. right. now left.
    + eapply IH; eauto.
Qed.
(** With unique names: two rulesets are on the same line iff their canonical forms are equal. *)
Theorem C23_same_line_iff_equal : forall (N : Type) (l : list (N * add)) gs x y, group_equal l = Ok gs -> In x l -> In y l ->
  ((exists g, In g gs /\ In x g /\ In y g) <-> snd x = snd y).
Proof.
  intros N l gs x y E Hx Hy. destruct (group_loop_ok (List.length l) l (le_n _)) as (gs' & E' & P & S).
  unfold group_equal in E. rewrite E in E'. injection E' as <-. clear E.
  apply (Permutation_in _ P), in_concat in Hx as (gx & Gx & Hx). apply (Permutation_in _ P), in_concat in Hy as (gy & Gy & Hy). clear P.
  split.
  - intros (g & G & X & Y). induction S as [|c h gs Hn Hc Hd S IH]; [destruct G|].
    destruct (add_eq_dec (snd x) (snd y)) as [|NE]; [auto|exfalso]. destruct G as [->|G]; [apply NE; rewrite (Hc x X), (Hc y Y); auto|].
    assert (Q : forall gs, @separate N gs -> forall g x y, In g gs -> In x g -> In y g -> snd x = snd y).
    { clear. induction 1 as [|c g gs Hn Hc Hd S IH]; [intros g x y []|]. intros g' x y [<-|H] Hx Hy; [rewrite (Hc x Hx), (Hc y Hy); auto|eauto]. }
    apply NE. eapply Q; eauto.
  - intros Exy. induction S as [|c h gs Hn Hc Hd S IH]; [destruct Gx|]. destruct Gx as [<-|Gx], Gy as [<-|Gy].
    + exists h. split; [now left|auto].
    + exfalso. apply (Hd gy y Gy Hy). rewrite <- Exy. auto.
    + exfalso. apply (Hd gx x Gx Hx). rewrite Exy. auto.
    + destruct (IH Gx Gy) as (g & G & R). exists g. split; [now right|auto].
Qed.
Example C23_ex : group_equal [("a", AConst 2); ("b", AConst 3); ("c", AConst 2); ("d", BK); ("e", AConst 3)] =
  Ok [[("a", AConst 2); ("c", AConst 2)]; [("b", AConst 3); ("e", AConst 3)]; [("d", BK)]].
Proof. vm_compute. reflexivity. Qed.
Print Assumptions C23_grouping_is_exact.
Print Assumptions C23_same_line_iff_equal.

(** ** C24 *)
(** _collect_paths: each packet of the set is in exactly one part, that of its first matching
    rule (or the empty path); packets outside are in none; no part is empty. *)
Theorem C24_collect_paths_partition : forall SHIFT reg acts b rules, 0 < SHIFT -> SHIFT mod 2 = 0 -> hd_error acts = Some DIFFERENT ->
  rules_ok reg rules -> (forall r, In r rules -> table (rcore r) = 0) -> add_wf 0 b -> (forall p, adenote b p = 0 \/ adenote b p = 1) ->
  exists parts, collect_paths SHIFT acts b rules = Ok (acts, parts) /\
    (forall x, In x parts -> add_wf 0 (snd x) /\ exists p, adenote (snd x) p = 1) /\
    forall p o, first_match rules p o ->
      map fst (filter (fun x => negb (adenote (snd x) p =? 0)) parts) =
      if adenote b p =? 0 then [] else [match o with Some r => path r | None => [] end].
Proof.
  intros SHIFT reg acts b rules Hs He Ha H T W B. destruct (collect_paths_ok SHIFT Hs He reg acts b rules Ha H T W B) as (parts & E & P1 & P2 & P3 & _).
  exists parts. split; [exact E|]. split.
  - intros x Hx. destruct (P1 x Hx) as (W1 & W2 & p & Hp). split; [auto|]. exists p. destruct (W2 p); congruence.
  - intros p o Ho. destruct (Z.eqb_spec (adenote b p) 0) as [Eb|Eb]; [now apply P2|now apply P3].
Qed.
(** Full claim for find_conflicting_paths: an original path is related to a new path iff some
    differing packet takes both. False when different original rules carry equal paths, e.g.
    when paths have not been filled in: the entry of the last one replaces the others. *)
Definition no_path (r : rule) : rule := mkRule (rcore r) [].
Definition r_bos : rule := mk_rule 20 0 [("MPLS_BOS", (1, None))] [OUTPUT 1].
Definition r_def : rule := mk_rule 0 0 [] [].
Definition t_bos : add := ANode 1163 (AConst 1) BK.

Lemma bos_accepts r p : m_items (rmatch (rcore r)) = m_items (mk_match [("MPLS_BOS", (1, None))]) -> (rule_accepts r p <-> p 420 = true).
Proof.
  intros E. unfold rule_accepts. rewrite E. split.
  - intros H. specialize (H ("MPLS_BOS", (1, None)) (or_introl eq_refl) (Slot "MPLS_BOS" 420 1)). apply (H ltac:(vm_compute; tauto) eq_refl 0); [cbn; lia|reflexivity].
  - intros Hp it [<-|[]] s Hs En j Hj _. cbn [fst snd] in *.
    assert (s = Slot "MPLS_BOS" 420 1) as -> by (apply slot_name_inj; [auto|vm_compute; tauto|exact En]).
    cbn [sl_bits] in Hj. assert (j = 0) as -> by lia. exact Hp.
Qed.
Lemma def_accepts r p : m_items (rmatch (rcore r)) = [] -> rule_accepts r p.
Proof. intros E it. unfold rule_accepts. rewrite E. intros []. Qed.
Lemma bos_BDD r : rmatch (rcore r) = mk_match [("MPLS_BOS", (1, None))] ->
  exists w, rule_wc r = Ok w /\ wc_BDD 30 acts_init w DIFFERENT = (acts_init, t_bos).
Proof.
  intros Em. destruct (rule_wc_ok registry_init r) as (w & Ew & Ww & Aw); [rewrite Em; now apply mk_match_ok|]. exists w. split; [auto|].
  destruct (wc_BDD 30 acts_init w DIFFERENT) as [a b] eqn:E.
  destruct (different_BDD 30 ltac:(lia) eq_refl acts_init w a b eq_refl (or_intror Ww) E) as (-> & Wb & Db). f_equal.
  apply (adenote_inj 0); [auto|cbn; rewrite NB_val; repeat split; try lia; discriminate|]. intros p. rewrite Db. cbn [t_bos adenote]. rewrite NB_val.
  change (1584 - 1 - 1163) with 420. destruct (p 420) eqn:Ep, (acceptsb w p) eqn:Ea; try reflexivity; exfalso.
  - assert (X : rule_accepts r p) by (apply bos_accepts; [now rewrite Em|auto]). apply Aw in X. congruence.
  - apply Aw, bos_accepts in Ea; [congruence|now rewrite Em].
Qed.
Lemma def_BDD r : rmatch (rcore r) = mk_match [] -> exists w, rule_wc r = Ok w /\ wc_BDD 30 acts_init w DIFFERENT = (acts_init, AConst 1).
Proof.
  intros Em. destruct (rule_wc_ok registry_init r) as (w & Ew & Ww & Aw); [rewrite Em; now apply mk_match_ok|]. exists w. split; [auto|].
  destruct (wc_BDD 30 acts_init w DIFFERENT) as [a b] eqn:E.
  destruct (different_BDD 30 ltac:(lia) eq_refl acts_init w a b eq_refl (or_intror Ww) E) as (-> & Wb & Db). f_equal.
  apply (adenote_inj 0); [auto|exact Logic.I|]. intros p. rewrite Db. destruct (acceptsb w p) eqn:Ea; [reflexivity|exfalso].
  assert (X : rule_accepts r p) by (apply def_accepts; now rewrite Em). apply Aw in X. congruence.
Qed.
Theorem C24_repeated_paths_refuted : exists orig new res p o o',
  rules_ok registry_init orig /\ rules_ok registry_init new /\ (forall r, In r (orig ++ new) -> table (rcore r) = 0) /\
  find_conflicting_paths 30 acts_init DIFFERS orig new false = Ok (acts_init, res) /\
  adenote DIFFERS p <> 0 /\ first_match orig p o /\ first_match new p o' /\
  ~ exists Qs, In (path_of o, Qs) res /\ In (path_of o') Qs.
Proof.
  exists [no_path r_bos; no_path r_def], [r_bos; r_def], [([], [path r_def])], (fun _ => true), (Some (no_path r_bos)), (Some r_bos).
  split; [intros r [<-|[<-|[]]]; now apply mk_match_ok|]. split; [intros r [<-|[<-|[]]]; now apply mk_match_ok|].
  split; [intros r [<-|[<-|[<-|[<-|[]]]]]; reflexivity|]. split.
  - destruct (bos_BDD (no_path r_bos) eq_refl) as (w1 & E1 & B1). destruct (def_BDD (no_path r_def) eq_refl) as (w2 & E2 & B2).
    assert (E3 : rule_wc r_bos = Ok w1) by exact E1. assert (E4 : rule_wc r_def = Ok w2) by exact E2.
    unfold find_conflicting_paths. change (sort_ruleset [no_path r_bos; no_path r_def]) with [no_path r_bos; no_path r_def].
    change (sort_ruleset [r_bos; r_def]) with [r_bos; r_def].
    assert (P1 : collect_paths 30 acts_init DIFFERS [no_path r_bos; no_path r_def] =
                 Ok (acts_init, [([], t_bos); ([], ANode 1163 BK (AConst 1))])).
    { unfold collect_paths. rewrite collect_eq, E1. change (negb _) with false. cbn [rbind]. cbv iota. rewrite B1.
      change (addApply addIntersection DIFFERS t_bos) with t_bos. cbv iota zeta. destruct (add_eq_dec t_bos BK) as [X|_]; [discriminate X|].
      change (addApply addDifference DIFFERS t_bos) with (ANode 1163 BK (AConst 1)). destruct (add_eq_dec (ANode 1163 BK (AConst 1)) BK) as [X|_]; [discriminate X|].
      rewrite collect_eq, E2. change (negb _) with false. cbn [rbind]. cbv iota. rewrite B2. reflexivity. }
    rewrite P1. cbn [rbind fst snd conflicts].
    assert (P2 : collect_paths 30 acts_init t_bos [r_bos; r_def] = Ok (acts_init, [(path r_bos, t_bos)])).
    { unfold collect_paths. rewrite collect_eq, E3. change (negb _) with false. cbn [rbind]. cbv iota. rewrite B1. reflexivity. }
    assert (P3 : collect_paths 30 acts_init (ANode 1163 BK (AConst 1)) [r_bos; r_def] = Ok (acts_init, [(path r_def, ANode 1163 BK (AConst 1))])).
    { unfold collect_paths. rewrite collect_eq, E3. change (negb _) with false. cbn [rbind]. cbv iota. rewrite B1.
      change (addApply addIntersection (ANode 1163 BK (AConst 1)) t_bos) with BK. cbv iota zeta.
      destruct (add_eq_dec BK BK) as [_|X]; [|now elim X]. destruct (add_eq_dec (ANode 1163 BK (AConst 1)) BK) as [X|_]; [discriminate X|].
      rewrite collect_eq, E4. change (negb _) with false. cbn [rbind]. cbv iota. rewrite B2. reflexivity. }
    rewrite P2. cbn [rbind fst snd conflicts]. rewrite P3. reflexivity.
  - split; [discriminate|]. split; [constructor; now apply bos_accepts|]. split; [constructor; now apply bos_accepts|].
    intros (Qs & [E|[]] & H). injection E as <-. destruct H as [H|[]]. cbn [path_of] in H.
    apply (f_equal (fun l => match l with c :: _ => priority c | [] => 0 end)) in H. discriminate H.
Qed.
(** Holds when paths tell rules apart as far as their matches differ and no path is empty
    (which is how to_single_table fills them in). *)
Theorem C24_conflicting_paths_partial : forall SHIFT reg acts diff orig new, 0 < SHIFT -> SHIFT mod 2 = 0 -> hd_error acts = Some DIFFERENT ->
  rules_ok reg orig -> rules_ok reg new -> (forall r, In r orig -> table (rcore r) = 0) -> (forall r, In r new -> table (rcore r) = 0) ->
  add_wf 0 diff -> (forall p, adenote diff p = 0 \/ adenote diff p = 1) ->
  (forall r, In r orig -> path r <> []) ->
  (forall r1 r2, In r1 orig -> In r2 orig -> path_eqb (path r1) (path r2) = true -> forall p, rule_accepts r1 p <-> rule_accepts r2 p) ->
  exists res, find_conflicting_paths SHIFT acts diff orig new true = Ok (acts, res) /\
    ForallOrdPairs (fun x y => path_eqb (fst x) (fst y) = false) res /\
    forall P Q, (exists Qs, In (P, Qs) res /\ In Q Qs) <->
      exists p o o', adenote diff p <> 0 /\ first_match orig p o /\ first_match new p o' /\ P = path_of o /\ Q = path_of o'.
Proof. intros SHIFT reg acts diff orig new Hs He Ha Ho Hn To Tn W B P1 P2. apply (find_conflicting_ok SHIFT Hs He reg); auto. split; auto. Qed.
(** Without no_sort the rules are first put in decreasing priority order. *)
Theorem C24_sorts_first : forall SHIFT acts diff orig new,
  find_conflicting_paths SHIFT acts diff orig new false = find_conflicting_paths SHIFT acts diff (sort_ruleset orig) (sort_ruleset new) true.
Proof. exact find_conflicting_sort. Qed.
(** The difference of two canonical forms is such a set: exactly the packets treated
    differently when the first table treats every packet (C16). *)
Theorem C24_difference_is_a_set_partial : forall a b, add_wf 0 a -> add_wf 0 b ->
  add_wf 0 (addApply addDifference a b) /\
  (forall p, adenote (addApply addDifference a b) p = 0 \/ adenote (addApply addDifference a b) p = 1) /\
  ((forall p, adenote a p <> 0) -> forall p, adenote (addApply addDifference a b) p <> 0 <-> adenote a p <> adenote b p).
Proof.
  intros a b Wa Wb. split; [now apply adiff_wf|]. split; [intros p; apply adiff_bool|]. intros T p. split.
  - intros H E. apply H. now apply adiff_sound.
  - intros H. rewrite (adiff_complete a b p H). discriminate.
Qed.
Example C24_ex : rules_ok registry_init [r_bos; r_def] /\ (forall r, In r [r_bos; r_def] -> path r <> []) /\
  path_eqb (path r_bos) (path r_def) = false /\ path_eqb (path r_bos) (path r_bos) = true /\ hd_error acts_init = Some DIFFERENT /\
  addApply addDifference (AConst 2) (ANode 1163 (AConst 3) (AConst 2)) = t_bos.
Proof.
  split; [intros r [<-|[<-|[]]]; now apply mk_match_ok|]. split; [intros r [<-|[<-|[]]]; discriminate|].
  split; [vm_compute; reflexivity|]. split; [vm_compute; reflexivity|]. split; reflexivity.
Qed.
Print Assumptions C24_collect_paths_partition.
Print Assumptions C24_repeated_paths_refuted.
Print Assumptions C24_conflicting_paths_partial.
Print Assumptions C24_sorts_first.
Print Assumptions C24_difference_is_a_set_partial.

(** ** C61 *)
Theorem C61_stable_priority_sort : forall rules,
  Permutation (sort_ruleset rules) rules /\
  StronglySorted (fun a b => table (rcore a) < table (rcore b) \/ (table (rcore a) = table (rcore b) /\ priority (rcore b) <= priority (rcore a))) (sort_ruleset rules) /\
  forall t pr, filter (fun r => (table (rcore r) =? t) && (priority (rcore r) =? pr)) (sort_ruleset rules) =
               filter (fun r => (table (rcore r) =? t) && (priority (rcore r) =? pr)) rules.
Proof. intros rules. split; [apply sort_perm|]. split; [apply sort_sorted|]. intros. apply sort_stable. Qed.
Definition ex61 : list (Z * Z * Z) := [(0, 5, 1); (1, 7, 2); (0, 9, 3); (0, 5, 4); (1, 8, 5); (0, 9, 6)].
Example C61_ex : map (fun r => cookie (rcore r)) (sort_ruleset (map (fun x => let '(t, pr, c) := x in mkRule (mkCore pr (Some c) match_new inst_empty t) []) ex61))
  = [Some 3; Some 6; Some 1; Some 4; Some 5; Some 2].
Proof. vm_compute. reflexivity. Qed.
Print Assumptions C61_stable_priority_sort.
