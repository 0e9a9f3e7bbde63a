(** Theorems for C87: the differences reported by the headerspace normaliser. *)
From Coq Require Import Permutation.
From Verif Require Import HspaceDiff SpecHspaceDiff SpecHspace WildcardProofs TreeProofs HspaceProofs HspaceMerge HspaceDiffProofs NormaliseProofs PropNormalise PropDeps PropHspace.
Local Open Scope string_scope.
Local Open Scope list_scope.
Local Open Scope Z_scope.
Local Opaque NB WC_FULLWC.

(** The two normal forms of two tables, sets iterated in any order. *)
Definition normal_forms (o1 f1 o2 f2 : list Z -> list Z) (reg : registry) (A B : list rule) (n1 n2 : sdict po_value * list Z) : Prop :=
  orders o1 f1 /\ orders o2 f2 /\ rules_ok reg A /\ rules_ok reg B /\ A <> [] /\ B <> [] /\ hs_normalise o1 f1 A = Ok n1 /\ hs_normalise o2 f2 B = Ok n2.

Lemma diff_tables o1 f1 o2 f2 o3 f3 reg A B n1 n2 : normal_forms o1 f1 o2 f2 reg A B n1 n2 -> orders o3 f3 ->
  exists LA LB, table_of A LA /\ table_of B LB /\
    let F := map fst LA ++ map fst LB in
    match hs_check_diff o3 f3 n1 n2 with
    | Ok (b, diff) =>
      hs_check_equal o3 f3 n1 n2 = Ok b /\
      (forall s, live F s -> (first_of s LA = None <-> first_of s LB = None)) /\
      (forall k, In k diff -> szero k = false /\ exists s, cell k [] [] s F /\ first_of s LA <> first_of s LB) /\
      (forall s, live F s -> first_of s LA <> first_of s LB -> exists k, In k diff /\ szero k = false /\ cell k [] [] s F)
    | Err e => e = AssertionError /\ exists s, live F s /\ ~ (first_of s LA = None <-> first_of s LB = None)
    end.
Proof.
  destruct n1 as [R1 F1], n2 as [R2 F2]. intros (O1 & O2 & RA & RB & NA & NB' & E1 & E2) O3.
  destruct (hs_ok o1 f1 O1 reg A RA _ E1) as (LA & TA & WA & QA & HA). destruct (hs_ok o2 f2 O2 reg B RB _ E2) as (LB & TB & WB & QB & HB). cbn [fst snd] in *. subst F1 F2.
  exists LA, LB. split; [exact TA|]. split; [exact TB|].
  assert (ZW : forall l, all_wc l -> all_wc (zset l)) by (intros l W w Hw; apply W; exact (proj1 (zset_in _ _) Hw)).
  assert (ZI : forall l w, In w l <-> In w (zset l)) by (intros l w; now rewrite zset_in).
  apply (diff_ok o3 f3 (ords_in o3 f3 O3) (proj2 O3) R1 R2 (zset (map fst LA)) (zset (map fst LB)) LA LB); auto using zset_nodup.
  - intros ->. inversion TA. congruence.
  - intros ->. inversion TB. congruence.
Qed.
Lemma alike_first reg A B LA LB p : rules_ok reg A -> rules_ok reg B -> table_of A LA -> table_of B LB ->
  alike A B p <-> first_of (fun w => acceptsb w p) LA = first_of (fun w => acceptsb w p) LB.
Proof.
  intros RA RB TA TB. pose proof (prescribes_first reg A RA LA TA p) as PA. pose proof (prescribes_first reg B RB LB TB p) as PB. unfold alike. split.
  - intros H. symmetry. apply PB, H, PA. reflexivity.
  - intros E o. rewrite PA, PB, E. reflexivity.
Qed.
Lemma diff_cell F k s p (V : Type) (L : list (Z * V)) : szero k = false -> cell k [] [] s F -> in_cell k p -> (forall w, In w (map fst L) -> In w F) ->
  first_of (fun w => acceptsb w p) L = first_of s L.
Proof. intros Z C H I. apply first_of_ext. intros w Hw. apply (proj1 (in_cell_iff k s F p Z C) H). auto. Qed.

(** ** C87 *)
(** When check_equal with diff=True returns, its verdict is that of check_equal without, and the
    cells it reports contain exactly the packets the two tables treat differently. *)
Theorem C87_difference : forall o1 f1 o2 f2 o3 f3 reg A B n1 n2 b diff, normal_forms o1 f1 o2 f2 reg A B n1 n2 -> orders o3 f3 ->
  hs_check_diff o3 f3 n1 n2 = Ok (b, diff) ->
  hs_check_equal o3 f3 n1 n2 = Ok b /\ forall p, (exists k, In k diff /\ in_cell k p) <-> ~ alike A B p.
Proof.
  intros o1 f1 o2 f2 o3 f3 reg A B n1 n2 b diff N O E. destruct (diff_tables o1 f1 o2 f2 o3 f3 reg A B n1 n2 N O) as (LA & LB & TA & TB & H). cbv zeta in H. rewrite E in H.
  destruct H as (EQ & _ & D1 & D2). split; [exact EQ|]. destruct N as (_ & _ & RA & RB & _). intros p. rewrite (alike_first reg A B LA LB p RA RB TA TB). split.
  - intros (k & Hk & Hp). destruct (D1 k Hk) as (Z & s & C & ND).
    rewrite !(diff_cell (map fst LA ++ map fst LB) k s p _ _ Z C Hp); [exact ND| |]; intros w Hw; apply in_app_iff; auto.
  - intros ND. destruct (D2 _ (packet_live _ p) ND) as (k & Hk & Z & C). exists k. split; [exact Hk|]. apply (in_cell_iff _ _ _ _ Z C). reflexivity.
Qed.

(** It returns whenever both tables have a rule for every packet, as those of to_single_table. *)
Theorem C87_default : forall o1 f1 o2 f2 o3 f3 reg A B n1 n2, normal_forms o1 f1 o2 f2 reg A B n1 n2 -> orders o3 f3 ->
  (exists r, In r A /\ forall p, rule_accepts r p) -> (exists r, In r B /\ forall p, rule_accepts r p) ->
  exists b diff, hs_check_diff o3 f3 n1 n2 = Ok (b, diff).
Proof.
  intros o1 f1 o2 f2 o3 f3 reg A B n1 n2 N O (ra & HrA & DA) (rb & HrB & DB). destruct (diff_tables o1 f1 o2 f2 o3 f3 reg A B n1 n2 N O) as (LA & LB & TA & TB & H). cbv zeta in H.
  destruct (hs_check_diff o3 f3 n1 n2) as [[b diff]|e]; [eauto|]. exfalso. destruct H as (_ & s & L & X). apply X. destruct N as (_ & _ & RA & RB & _).
  assert (G : forall R LR r, rules_ok reg R -> table_of R LR -> In r R -> (forall p, rule_accepts r p) -> (forall w, In w (map fst LR) -> In w (map fst LA ++ map fst LB)) -> first_of s LR <> None).
  { intros R LR r RR TR Hr Hall I. apply In_nth_error in Hr. destruct Hr as (i & Hi). destruct (Forall2_nth_l _ _ _ TR i r Hi) as ([w v] & Hl & Hw & _). cbn [fst] in Hw.
    apply nth_error_In in Hl, Hi. destruct (rule_wc_ok reg r (RR r Hi)) as (w' & Ew & Ww & Aw). rewrite Hw in Ew. injection Ew as <-.
    assert (Hin : In w (map fst LR)) by (apply (in_map fst) in Hl; exact Hl). apply (first_of_in s LR w Hin). destruct (s w) eqn:Es; [reflexivity|]. exfalso. apply L. right. exists w. split; [apply neg_in; auto|].
    intros p _. apply acceptsb_spec, Aw, Hall. }
  assert (NA : first_of s LA <> None) by (apply (G A LA ra); auto; intros w Hw; apply in_app_iff; auto).
  assert (NB' : first_of s LB <> None) by (apply (G B LB rb); auto; intros w Hw; apply in_app_iff; auto).
  tauto.
Qed.

(** It never returns when some packet is handled by one table only: the keys of the two dicts
    differ and an assert fails. *)
Theorem C87_no_report : forall o1 f1 o2 f2 o3 f3 reg A B n1 n2 p d, normal_forms o1 f1 o2 f2 reg A B n1 n2 -> orders o3 f3 ->
  (prescribes A p None /\ prescribes B p (Some d)) \/ (prescribes A p (Some d) /\ prescribes B p None) ->
  hs_check_diff o3 f3 n1 n2 = Err AssertionError.
Proof.
  intros o1 f1 o2 f2 o3 f3 reg A B n1 n2 p d N O H. destruct (diff_tables o1 f1 o2 f2 o3 f3 reg A B n1 n2 N O) as (LA & LB & TA & TB & X). cbv zeta in X.
  destruct (hs_check_diff o3 f3 n1 n2) as [[b diff]|e]; [|destruct X; congruence]. exfalso. destruct X as (_ & C & _). specialize (C _ (packet_live _ p)). destruct N as (_ & _ & RA & RB & _).
  rewrite !(prescribes_first reg A RA LA TA), !(prescribes_first reg B RB LB TB) in H. destruct H as [[H1 H2]|[H1 H2]]; rewrite H1, H2 in C; destruct C as [C1 C2]; [discriminate (C1 eq_refl)|discriminate (C2 eq_refl)].
Qed.

(** find_conflicting_paths on the reported cells, in any order. Complete: the paths of the rules
    that a differing packet takes are related. Sound up to shadowing: related paths belong to rules
    that both match all packets of a reported cell. *)
Theorem C87_paths : forall o1 f1 o2 f2 o3 f3 reg A B n1 n2 b diff diff', normal_forms o1 f1 o2 f2 reg A B n1 n2 -> orders o3 f3 ->
  hs_check_diff o3 f3 n1 n2 = Ok (b, diff) -> Permutation diff diff' ->
  exists res, hs_conflicts diff' A B = Ok res /\
    (forall p r1 r2, ~ alike A B p -> first_match A p (Some r1) -> first_match B p (Some r2) -> related res (path r1) (path r2)) /\
    (forall P Qs Q, In (P, Qs) res -> In Q Qs -> exists k r1 r2, In k diff /\ In r1 A /\ In r2 B /\ same_path P (path r1) /\ Q = path r2 /\
      forall p, in_cell k p -> rule_accepts r1 p /\ rule_accepts r2 p /\ ~ alike A B p).
Proof.
  intros o1 f1 o2 f2 o3 f3 reg A B n1 n2 b diff diff' N O E PM.
  destruct (C87_difference o1 f1 o2 f2 o3 f3 reg A B n1 n2 b diff N O E) as [_ DIFF].
  destruct (diff_tables o1 f1 o2 f2 o3 f3 reg A B n1 n2 N O) as (LA & LB & TA & TB & H). cbv zeta in H. rewrite E in H.
  destruct H as (EQ & _ & D1 & D2). destruct N as (_ & _ & RA & RB & _).
  assert (WC : forall r, In r (A ++ B) -> exists w, rule_wc r = Ok w /\ wc_ok w /\ forall p, acceptsb w p = true <-> rule_accepts r p).
  { intros r Hr. apply (rule_wc_ok reg). apply in_app_iff in Hr. destruct Hr; auto. }
  destruct (hs_conflicts_ok diff' A B) as (res & ER & K1 & K2).
  { intros h Hh. apply (Permutation_in _ (Permutation_sym PM)) in Hh. destruct (D1 h Hh) as (Z & s & C & _). destruct (cell_inc _ _ _ Z C) as (i & Ei & Wi & _). eauto. }
  { intros r Hr. destruct (WC r Hr) as (w & Ew & _). eauto. }
  exists res. split; [exact ER|]. split.
  - intros p r1 r2 ND M1 M2. rewrite (alike_first reg A B LA LB p RA RB TA TB) in ND.
    destruct (D2 _ (packet_live _ p) ND) as (k & Hk & Z & C). destruct (cell_inc _ _ _ Z C) as (i & Ei & Wi & Ai).
    assert (FM : forall R r, first_match R p (Some r) -> In r R /\ rule_accepts r p).
    { clear. intros R r H. remember (Some r) as o eqn:E. revert E. induction H as [p|r' rs p H|r' rs p o H F IH]; intros E; [discriminate| |].
      - injection E as ->. split; [now left|exact H]. - destruct (IH E) as [I J]. split; [now right|exact J]. }
    assert (TK : forall R LR r, table_of R LR -> (forall w, In w (map fst LR) -> In w (map fst LA ++ map fst LB)) -> (forall x, In x R -> In x (A ++ B)) -> In r R -> rule_accepts r p -> takes i r).
    { intros R LR r TR I J Hr Ha. destruct (WC r (J r Hr)) as (w & Ew & Ww & Aw). exists w. split; [exact Ew|]. intros q Hq. apply Ai in Hq. apply Hq. apply pos_in.
      apply In_nth_error in Hr. destruct Hr as (j & Hj). destruct (Forall2_nth_l _ _ _ TR j r Hj) as ([w' v] & Hl & Hw & _). cbn [fst] in Hw. rewrite Ew in Hw. injection Hw as <-.
      split; [apply I; apply nth_error_In in Hl; apply (in_map fst) in Hl; exact Hl|]. now apply Aw. }
    destruct (FM A r1 M1) as [I1 A1]. destruct (FM B r2 M2) as [I2 A2].
    apply (K1 k i r1 r2); auto.
    + exact (Permutation_in _ PM Hk).
    + apply (TK A LA); auto; intros w Hw; apply in_app_iff; auto.
    + apply (TK B LB); auto; intros w Hw; apply in_app_iff; auto.
  - intros P Qs Q H1 H2. destruct (K2 P Qs Q H1 H2) as (k & i & r1 & r2 & Hk & Ei & I1 & I2 & (w1 & E1 & S1) & (w2 & E2 & S2) & SP & EQ').
    apply (Permutation_in _ (Permutation_sym PM)) in Hk. exists k, r1, r2. split; [exact Hk|]. split; [exact I1|]. split; [exact I2|]. split; [exact SP|]. split; [exact EQ'|]. intros p Hp.
    assert (ND : ~ alike A B p) by (apply DIFF; eauto). destruct Hp as (_ & w & Ew & Aw & _). rewrite Ei in Ew. injection Ew as <-.
    destruct (WC r1) as (x1 & X1 & _ & Y1); [apply in_app_iff; auto|]. destruct (WC r2) as (x2 & X2 & _ & Y2); [apply in_app_iff; auto|].
    rewrite E1 in X1. injection X1 as <-. rewrite E2 in X2. injection X2 as <-.
    split; [apply Y1, acceptsb_spec, S1, Aw|]. split; [apply Y2, acceptsb_spec, S2, Aw|exact ND].
Qed.

(** ** Examples and refutations *)
Definition hs_report (A B : list rule) : result (bool * list shim) := do a <- hs_normalise oid oid A; do b <- hs_normalise (@rev Z) (@rev Z) B; hs_check_diff oid oid a b.
(** MPLS_BOS=1 goes to [n], the rest to port 2 *)
Definition ex87 (n : Z) : list rule := [mk_rule 30 0 [("MPLS_BOS", (1, None))] [OUTPUT n]; mk_rule 0 0 [] [OUTPUT 2]].
Lemma ex87_ok n : rules_ok registry_init (ex87 n).
Proof. intros r [<-|[<-|[]]]; apply mk_match_ok; reflexivity. Qed.
Lemma ex87_forms n m : exists a b, normal_forms oid oid (@rev Z) (@rev Z) registry_init (ex87 n) (ex87 m) a b.
Proof.
  assert (T : forall o f k, orders o f -> exists a, hs_normalise o f (ex87 k) = Ok a).
  { intros o f k O. apply (C59_total o f registry_init); [exact O|apply ex87_ok|]. intros r [<-|[<-|[]]]; vm_compute; reflexivity. }
  destruct (T oid oid n oid_orders) as (a & Ea). destruct (T _ _ m rev_orders) as (b & Eb). exists a, b.
  split; [exact oid_orders|]. split; [exact rev_orders|]. split; [apply ex87_ok|]. split; [apply ex87_ok|]. split; [discriminate|]. split; [discriminate|]. auto.
Qed.
Example C87_ex : match hs_report (ex87 1) (ex87 3) with Ok (false, [k]) => szero k = false /\ sexc k = [] | _ => False end.
Proof. vm_compute. auto. Qed.
Example C87_ex_same : hs_report (ex87 1) (ex87 1) = Ok (true, []).
Proof. vm_compute. reflexivity. Qed.
Example C87_ex_default : exists r, In r (ex87 1) /\ forall p, rule_accepts r p.
Proof. exists (mk_rule 0 0 [] [OUTPUT 2]). split; [right; now left|]. intros p. now apply def_accepts. Qed.

(** Full claim of the docstring: with diff set the result is the tuple (is_equal, difference).
    False: tables that handle different packets make it fail. *)
Theorem C87_report_refuted : exists A B, rules_ok registry_init A /\ rules_ok registry_init B /\ A <> [] /\ B <> [] /\
  hs_verdict A B = Ok false /\ hs_report A B = Err AssertionError.
Proof.
  exists (ex87 1), (firstn 1 (ex87 1)). split; [apply ex87_ok|]. split; [intros r [<-|[]]; apply mk_match_ok; reflexivity|]. split; [discriminate|]. split; [discriminate|].
  split; vm_compute; reflexivity.
Qed.

(** Full claim for find_conflicting_paths: two paths are related only if a differing packet takes
    both. False: rules under the ones taken are reported too. *)
Theorem C87_shadowed_refuted : exists A B diff res r1 r2, rules_ok registry_init A /\ rules_ok registry_init B /\
  hs_report A B = Ok (false, diff) /\ hs_conflicts diff A B = Ok res /\ In r1 A /\ In r2 B /\ related res (path r1) (path r2) /\
  ~ exists p, ~ alike A B p /\ (first_match A p (Some r1) \/ first_match B p (Some r2)).
Proof.
  set (A := ex87 1). set (B := ex87 3). set (r := mk_rule 0 0 [] [OUTPUT 2]).
  assert (RP : exists diff, hs_report A B = Ok (false, diff)) by (eexists; vm_compute; reflexivity). destruct RP as (diff & RP).
  assert (CF : hs_conflicts diff A B = Ok [(path (hd r A), [path (hd r B); path r]); (path r, [path (hd r B); path r])]).
  { assert (X : (do d <- hs_report A B; hs_conflicts (snd d) A B) = Ok [(path (hd r A), [path (hd r B); path r]); (path r, [path (hd r B); path r])]) by (vm_compute; reflexivity).
    rewrite RP in X. exact X. }
  exists A, B, diff. eexists. exists r, r. split; [apply ex87_ok|]. split; [apply ex87_ok|]. split; [exact RP|]. split; [exact CF|]. split; [right; now left|]. split; [right; now left|]. split.
  - exists (path r), [path (hd r B); path r]. split; [right; now left|]. split; [now left|right; now left].
  - intros (p & ND & FM). apply ND.
    assert (NB' : ~ p 420 = true).
    { intros P. destruct FM as [FM|FM]; inversion FM as [|? ? ? Acc E1 E2|? ? ? ? NAcc F E1 E2]; subst; try (apply NAcc; now apply bos_accepts); apply (f_equal (fun r => List.length (m_items (rmatch (rcore r))))) in E2; vm_compute in E2; discriminate. }
    assert (X : forall n, prescribes (ex87 n) p (Some [(2, [OUTPUT 2])])).
    { intros n. right. exists r. eexists. split; [|split; [vm_compute; reflexivity|reflexivity]]. apply fm_miss; [rewrite bos_accepts by reflexivity; exact NB'|]. apply fm_hit. now apply def_accepts. }
    intros o. split; intros H; [rewrite (prescribes_unique _ _ _ _ H (X 1))|rewrite (prescribes_unique _ _ _ _ H (X 3))]; apply X.
Qed.

Print Assumptions C87_difference.
Print Assumptions C87_default.
Print Assumptions C87_no_report.
Print Assumptions C87_paths.
Print Assumptions C87_report_refuted.
Print Assumptions C87_shadowed_refuted.
