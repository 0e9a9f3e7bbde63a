(** Theorems for C59: the headerspace normaliser. *)
From Coq Require Import Permutation.
From Verif Require Import Hspace SpecHspace WildcardProofs TreeProofs HspaceProofs HspaceMerge NormaliseProofs PropNormalise PropDeps.
Local Open Scope string_scope.
Local Open Scope list_scope.
Local Open Scope Z_scope.
Local Opaque NB WC_FULLWC.

(** The orders in which sets are iterated. *)
Definition orders (ords ordf : list Z -> list Z) : Prop := (forall l, Permutation (ords l) l) /\ (forall l, Permutation (ordf l) l).
(** The wildcards and actions of an ordered table. *)
Definition table_of (rules : list rule) (L : list (Z * po_value)) : Prop :=
  Forall2 (fun r wv => rule_wc r = Ok (fst wv) /\ rule_actions r = Ok (snd wv)) rules L.
(** A choice of sign for each wildcard whose cell is not visibly empty. *)
Definition live (F : list Z) (s : Z -> bool) : Prop := ~ dead (pos s F) (neg s F).

Section Glue.
  Context (ords ordf : list Z -> list Z) (O : orders ords ordf).
  Lemma ords_in l x : In x (ords l) <-> In x l.
  Proof. destruct O as [H _]. split; apply Permutation_in; [|symmetry]; apply H. Qed.
  Lemma hs_ok reg rules : rules_ok reg rules -> forall n, hs_normalise ords ordf rules = Ok n ->
    exists L, table_of rules L /\ all_wc (map fst L) /\ snd n = zset (map fst L) /\ normform (fst n) (zset (map fst L)) L.
  Proof.
    intros RO n. unfold hs_normalise. destruct (rall _) as [L|e] eqn:E; [|discriminate]. cbn [rbind]. apply rall_inv in E.
    assert (T : table_of rules L).
    { clear -E. unfold table_of. induction E as [|r [w v] rules L H E IH]; constructor; [|exact IH]. cbn beta in H. destruct (rule_wc r) as [w'|]; [|discriminate]. cbn [rbind] in H. destruct (rule_actions r) as [v'|]; [|discriminate].
      injection H as -> ->. auto. }
    assert (W : all_wc (map fst L)).
    { intros w Hw. apply in_map_iff in Hw. destruct Hw as ([w' v] & <- & Hw). apply In_nth_error in Hw. destruct Hw as (i & Hi). destruct (Forall2_nth_r _ _ _ T i _ Hi) as (r & Hr & Hw & _).
      apply nth_error_In in Hr. destruct (rule_wc_ok reg r (RO r Hr)) as (w1 & Ew & Ww & _). rewrite Hw in Ew. injection Ew as <-. exact Ww. }
    destruct (normal_ok ords ordf ords_in (proj2 O) L W) as (D & R & ED & ER & HN). rewrite ED. cbn [rbind]. rewrite ER. cbn [rbind]. intros Q. injection Q as <-. exists L. auto.
  Qed.
  Lemma hs_total reg rules : rules_ok reg rules -> (forall r, In r rules -> is_ok (rule_actions r) = true) -> exists n, hs_normalise ords ordf rules = Ok n.
  Proof.
    intros RO AO. unfold hs_normalise.
    destruct (rall_all (fun x => do wc <- rule_wc x; do a <- rule_actions x; Ok (wc, a)) (fun x wv => rule_wc x = Ok (fst wv)) rules) as (L & E & F2).
    { intros r Hr. destruct (rule_wc_ok reg r (RO r Hr)) as (w & Ew & _). pose proof (AO r Hr) as A. destruct (rule_actions r) as [v|]; [|discriminate]. exists (w, v). rewrite Ew. cbn [rbind]. auto. }
    rewrite E. cbn [rbind].
    assert (W : all_wc (map fst L)).
    { intros w Hw. apply in_map_iff in Hw. destruct Hw as ([w' v] & <- & Hw). apply In_nth_error in Hw. destruct Hw as (i & Hi). destruct (Forall2_nth_r _ _ _ F2 i _ Hi) as (r & Hr & Hw).
      apply nth_error_In in Hr. destruct (rule_wc_ok reg r (RO r Hr)) as (w1 & Ew & Ww & _). rewrite Hw in Ew. injection Ew as <-. exact Ww. }
    destruct (normal_ok ords ordf ords_in (proj2 O) L W) as (D & R & ED & ER & HN). rewrite ED. cbn [rbind]. rewrite ER. cbn [rbind]. eauto.
  Qed.
End Glue.

Lemma prescribes_first reg rules : rules_ok reg rules -> forall L, table_of rules L -> forall p o, prescribes rules p o <-> first_of (fun w => acceptsb w p) L = o.
Proof.
  intros RO L T p.
  assert (X : prescribes rules p (first_of (fun w => acceptsb w p) L)).
  { induction T as [|r [w v] rules L [Hw Hv] T IH]; cbn [first_of].
    - left. split; [constructor|reflexivity].
    - cbn [fst snd] in *. destruct (rule_wc_ok reg r (RO r (or_introl eq_refl))) as (w' & Ew & _ & A). rewrite Hw in Ew. injection Ew as <-.
      destruct (acceptsb w p) eqn:E.
      + right. exists r, v. split; [constructor; now apply A|]. auto.
      + assert (N : ~ rule_accepts r p) by (intros N; apply A in N; congruence).
        destruct IH as [[F Q]|(r' & d & F & Q1 & Q2)]; [intros z Hz; apply RO; now right| |].
        * left. split; [now apply fm_miss|exact Q].
        * right. exists r', d. split; [now apply fm_miss|auto]. }
  intros o. split; [intros H; exact (prescribes_unique _ _ _ _ X H)|intros <-; exact X].
Qed.
Lemma packet_live F p : live F (fun w => acceptsb w p).
Proof.
  intros [H|(x & Hx & H)].
  - apply H. exists p. intros w Hw. apply pos_in in Hw. now apply acceptsb_spec.
  - apply neg_in in Hx. destruct Hx as [_ Hx]. assert (accepts x p); [|apply acceptsb_spec in H0; congruence].
    apply H. intros w Hw. apply pos_in in Hw. now apply acceptsb_spec.
Qed.

(** ** C59 *)
(** normalise never fails on well-formed rules whose actions can be put in canonical form. *)
Theorem C59_total : forall ords ordf reg rules, orders ords ordf -> rules_ok reg rules -> (forall r, In r rules -> is_ok (rule_actions r) = true) ->
  exists n, hs_normalise ords ordf rules = Ok n.
Proof. intros. eapply hs_total; eauto. Qed.

(** check_equal compares the two tables on every choice of signs for the wildcards of both, except
    those visibly empty: where the wildcards to satisfy are disjoint or covered by one to avoid.
    All sets may be iterated in any order, a different one in each call. *)
Theorem C59_exact : forall o1 f1 o2 f2 o3 f3 reg A B n1 n2, orders o1 f1 -> orders o2 f2 -> orders o3 f3 -> rules_ok reg A -> rules_ok reg B -> A <> [] -> B <> [] ->
  hs_normalise o1 f1 A = Ok n1 -> hs_normalise o2 f2 B = Ok n2 ->
  exists b LA LB, table_of A LA /\ table_of B LB /\ hs_check_equal o3 f3 n1 n2 = Ok b /\
    (b = true <-> forall s, live (map fst LA ++ map fst LB) s -> first_of s LA = first_of s LB).
Proof.
  intros o1 f1 o2 f2 o3 f3 reg A B [R1 F1] [R2 F2] O1 O2 O3 RA RB NA NB' E1 E2.
  destruct (hs_ok o1 f1 O1 reg A RA _ E1) as (LA & TA & WA & QA & HA). destruct (hs_ok o2 f2 O2 reg B RB _ E2) as (LB & TB & WB & QB & HB). cbn [fst snd] in *. subst F1 F2.
  assert (ZW : forall l, all_wc l -> all_wc (zset l)) by (intros l W w Hw; apply W; exact (proj1 (zset_in _ _) Hw)).
  assert (ZI : forall l w, In w l <-> In w (zset l)) by (intros l w; now rewrite zset_in).
  destruct (check_ok o3 f3 (ords_in o3 f3 O3) (proj2 O3) R1 R2 (zset (map fst LA)) (zset (map fst LB)) LA LB) as [P _]; auto using zset_nodup.
  assert (LA <> []) by (intros ->; inversion TA; congruence). assert (LB <> []) by (intros ->; inversion TB; congruence).
  destruct (P H H0) as (b & Eb & Hb). exists b, LA, LB. auto.
Qed.

(** True means that every packet is treated alike. *)
Theorem C59_sound : forall o1 f1 o2 f2 o3 f3 reg A B n1 n2, orders o1 f1 -> orders o2 f2 -> orders o3 f3 -> rules_ok reg A -> rules_ok reg B ->
  hs_normalise o1 f1 A = Ok n1 -> hs_normalise o2 f2 B = Ok n2 -> hs_check_equal o3 f3 n1 n2 = Ok true ->
  forall p o, prescribes A p o <-> prescribes B p o.
Proof.
  intros o1 f1 o2 f2 o3 f3 reg A B [R1 F1] [R2 F2] O1 O2 O3 RA RB E1 E2 EC.
  destruct (hs_ok o1 f1 O1 reg A RA _ E1) as (LA & TA & WA & QA & HA). destruct (hs_ok o2 f2 O2 reg B RB _ E2) as (LB & TB & WB & QB & HB). cbn [fst snd] in *. subst F1 F2.
  assert (ZW : forall l, all_wc l -> all_wc (zset l)) by (intros l W w Hw; apply W; exact (proj1 (zset_in _ _) Hw)).
  assert (ZI : forall l w, In w l <-> In w (zset l)) by (intros l w; now rewrite zset_in).
  destruct (check_ok o3 f3 (ords_in o3 f3 O3) (proj2 O3) R1 R2 (zset (map fst LA)) (zset (map fst LB)) LA LB) as [P Q]; auto using zset_nodup.
  destruct LA as [|a LA]; [rewrite Q in EC by auto; discriminate|]. destruct LB as [|b LB]; [rewrite Q in EC by auto; discriminate|].
  destruct P as (v & Ev & Hv); [discriminate|discriminate|]. rewrite EC in Ev. injection Ev as <-. destruct Hv as [Hv _]. specialize (Hv eq_refl).
  intros p o. rewrite (prescribes_first reg A RA _ TA p o), (prescribes_first reg B RB _ TB p o). rewrite (Hv (fun w => acceptsb w p)); [reflexivity|]. apply packet_live.
Qed.

(** The cells depend neither on the order of the rules nor on that of the sets: rearranging the
    rules gives a dict with the same keys. *)
Theorem C59_cells : forall o1 f1 o2 f2 reg A B n1 n2, orders o1 f1 -> orders o2 f2 -> rules_ok reg A -> Permutation A B ->
  hs_normalise o1 f1 A = Ok n1 -> hs_normalise o2 f2 B = Ok n2 ->
  (forall w, In w (snd n1) <-> In w (snd n2)) /\ forall k, sget (fst n1) k = None <-> sget (fst n2) k = None.
Proof.
  assert (G : forall o1 f1 o2 f2 reg A B n1 n2, orders o1 f1 -> orders o2 f2 -> rules_ok reg A -> rules_ok reg B -> (forall r, In r A <-> In r B) ->
    hs_normalise o1 f1 A = Ok n1 -> hs_normalise o2 f2 B = Ok n2 ->
    (forall w, In w (snd n1) -> In w (snd n2)) /\ ((forall w, In w (snd n2) -> In w (snd n1)) -> forall k, sget (fst n1) k <> None -> sget (fst n2) k <> None)).
  { intros o1 f1 o2 f2 reg A B [R1 F1] [R2 F2] O1 O2 RA RB PM E1 E2.
    destruct (hs_ok o1 f1 O1 reg A RA _ E1) as (LA & TA & WA & QA & HA). destruct (hs_ok o2 f2 O2 reg B RB _ E2) as (LB & TB & WB & QB & HB). cbn [fst snd] in *. subst F1 F2.
    assert (II : forall w, In w (map fst LA) -> In w (map fst LB)).
    { intros w Hw. apply in_map_iff in Hw. destruct Hw as ([w' v] & <- & Hw). apply In_nth_error in Hw. destruct Hw as (i & Hi).
      destruct (Forall2_nth_r _ _ _ TA i _ Hi) as (r & Hr & Hw & Hv). apply nth_error_In in Hr. apply PM in Hr. apply In_nth_error in Hr. destruct Hr as (j & Hj).
      destruct (Forall2_nth_l _ _ _ TB j _ Hj) as ([w2 v2] & Hl & Hw2 & Hv2). cbn [fst] in *. rewrite Hw in Hw2. injection Hw2 as <-. apply nth_error_In in Hl. apply (in_map fst) in Hl. exact Hl. }
    split; [intros w; rewrite !zset_in; apply II|]. intros BI k Hk N. destruct HA as (D1 & G1 & C1 & Z1 & _). destruct HB as (D2 & G2 & C2 & Z2 & _).
    destruct (sget R1 k) as [v|] eqn:Ek; [|congruence]. destruct (szero k) eqn:Z.
    - assert (NLB : LB <> []).
      { intros ->. inversion TB. subst. assert (HA0 : LA = []); [|subst LA; inversion TA; subst; injection E1 as <-; discriminate Ek].
        destruct LA as [|[w x] LA]; [reflexivity|]. exfalso. exact (II w (or_introl eq_refl)). }
      destruct (Z2 NLB) as (k' & v' & Hk' & Z'). apply (proj1 (sget_none R2 k) N) in Hk'. assert (shim_eqb k' k = true) by (apply shim_eqb_iff; left; auto). congruence.
    - destruct (sget_some _ _ _ Ek) as (k' & Hk' & Q). assert (Z' : szero k' = false) by (now rewrite (shim_eqb_zero _ _ Q)). destruct (C1 k' v Hk' Z') as (s & Hs).
      assert (Hs' : cell k [] [] s (zset (map fst LA))) by (exact (rep_eq _ _ _ _ Q Hs)).
      assert (Hs2 : cell k [] [] s (zset (map fst LB))).
      { eapply cell_ext; [| |exact Hs']; [|intros w _; reflexivity]. intros w. split; [rewrite !zset_in; apply II|apply BI]. }
      rewrite (G2 s k Z Hs2) in N. pose proof (G1 s k Z Hs') as M. rewrite Ek in M. symmetry in M.
      destruct (first_of_pos s LA v M (map fst LA) (fun w H => H)) as (w & Hw & Sw). apply (first_of_in s LB w (II w Hw) Sw N). }
  intros o1 f1 o2 f2 reg A B n1 n2 O1 O2 RA PM E1 E2.
  assert (PI : forall r, In r A <-> In r B) by (intros r; split; apply Permutation_in; [|symmetry]; exact PM).
  assert (RB : rules_ok reg B) by (intros r Hr; apply RA, PI, Hr).
  destruct (G o1 f1 o2 f2 reg A B n1 n2 O1 O2 RA RB PI E1 E2) as [X1 Y1].
  destruct (G o2 f2 o1 f1 reg B A n2 n1 O2 O1 RB RA (fun r => iff_sym (PI r)) E2 E1) as [X2 Y2].
  split; [intros w; split; auto|]. intros k. specialize (Y1 X2 k). specialize (Y2 X1 k).
  destruct (sget (fst n1) k), (sget (fst n2) k); split; intros H; try reflexivity; try congruence; exfalso; [apply Y1|apply Y2]; congruence.
Qed.

(** A ruleset without rules makes check_equal fail: it has no empty cell to delete. *)
Theorem C59_empty : forall o1 f1 o2 f2 o3 f3 reg A B n1 n2, orders o1 f1 -> orders o2 f2 -> orders o3 f3 -> rules_ok reg A -> rules_ok reg B -> A = [] \/ B = [] ->
  hs_normalise o1 f1 A = Ok n1 -> hs_normalise o2 f2 B = Ok n2 -> hs_check_equal o3 f3 n1 n2 = Err KeyError.
Proof.
  intros o1 f1 o2 f2 o3 f3 reg A B [R1 F1] [R2 F2] O1 O2 O3 RA RB E0 E1 E2.
  destruct (hs_ok o1 f1 O1 reg A RA _ E1) as (LA & TA & WA & QA & HA). destruct (hs_ok o2 f2 O2 reg B RB _ E2) as (LB & TB & WB & QB & HB). cbn [fst snd] in *. subst F1 F2.
  assert (ZW : forall l, all_wc l -> all_wc (zset l)) by (intros l W w Hw; apply W; exact (proj1 (zset_in _ _) Hw)).
  assert (ZI : forall l w, In w l <-> In w (zset l)) by (intros l w; now rewrite zset_in).
  destruct (check_ok o3 f3 (ords_in o3 f3 O3) (proj2 O3) R1 R2 (zset (map fst LA)) (zset (map fst LB)) LA LB) as [_ Q]; auto using zset_nodup.
  apply Q. destruct E0 as [->| ->]; [left; now inversion TA|right; now inversion TB].
Qed.

(** ** Examples and refutations *)
Definition oid (l : list Z) : list Z := l.
Lemma oid_orders : orders oid oid.
Proof. split; intros l; reflexivity. Qed.
Lemma rev_orders : orders (@rev Z) (@rev Z).
Proof. split; intros l; symmetry; apply Permutation_rev. Qed.
Definition hs_verdict (A B : list rule) : result bool := do a <- hs_normalise oid oid A; do b <- hs_normalise (@rev Z) (@rev Z) B; hs_check_equal oid oid a b.
(** swapped disjoint rules, and a rule cut in two that the default covers *)
Definition ex59a : list rule := [mk_rule 30 0 [("MPLS_BOS", (1, None))] [OUTPUT 1]; mk_rule 20 0 [("MPLS_BOS", (0, None))] [OUTPUT 2]].
Definition ex59b : list rule := [mk_rule 30 0 [("MPLS_BOS", (0, None))] [OUTPUT 2]; mk_rule 20 0 [("MPLS_BOS", (1, None))] [OUTPUT 1]; mk_rule 10 0 [("MPLS_BOS", (1, None)); ("VLAN_VID", (4097, None))] [OUTPUT 3]].
Lemma ex59_ok : rules_ok registry_init ex59a /\ rules_ok registry_init ex59b.
Proof. split; [intros r [<-|[<-|[]]]|intros r [<-|[<-|[<-|[]]]]]; apply mk_match_ok; reflexivity. Qed.
Example C59_sound_ex : hs_verdict ex59a ex59b = Ok true.
Proof. vm_compute. reflexivity. Qed.
Example C59_distinguishes : hs_verdict ex_A ex_B = Ok false.
Proof. vm_compute. reflexivity. Qed.
Example C59_cells_ex : match hs_normalise oid oid ex59a, hs_normalise (@rev Z) (@rev Z) ex59b with Ok a, Ok b => List.length (fst a) = 3%nat /\ List.length (fst b) = 4%nat | _, _ => False end.
Proof. vm_compute. auto. Qed.

(** The converse of C59_sound fails: the default rule is covered by the two rules together but by
    neither alone, so its cell is kept and its action compared. *)
Definition ex59c (n : Z) : list rule := [mk_rule 30 0 [("MPLS_BOS", (1, None))] [OUTPUT 1]; mk_rule 30 0 [("MPLS_BOS", (0, None))] [OUTPUT 1]; mk_rule 0 0 [] [OUTPUT n]].
Theorem C59_complete_refuted : exists A B, rules_ok registry_init A /\ rules_ok registry_init B /\ (forall p o, prescribes A p o <-> prescribes B p o) /\ hs_verdict A B = Ok false.
Proof.
  exists (ex59c 2), (ex59c 3).
  assert (RO : forall n, rules_ok registry_init (ex59c n)) by (intros n r [<-|[<-|[<-|[]]]]; apply mk_match_ok; reflexivity).
  split; [apply RO|]. split; [apply RO|]. split; [|vm_compute; reflexivity].
  assert (X : forall n p, prescribes (ex59c n) p (Some [(1, [OUTPUT 1])])).
  { intros n p. right. destruct (p 420) eqn:E.
    - exists (mk_rule 30 0 [("MPLS_BOS", (1, None))] [OUTPUT 1]). eexists. split; [apply fm_hit; now apply bos_accepts|]. split; vm_compute; reflexivity.
    - exists (mk_rule 30 0 [("MPLS_BOS", (0, None))] [OUTPUT 1]). eexists. split.
      + apply fm_miss; [rewrite bos_accepts by reflexivity; congruence|]. apply fm_hit. now apply bos0_accepts.
      + split; vm_compute; reflexivity. }
  intros p o. split; intros H; [rewrite (prescribes_unique _ _ _ _ H (X 2 p))|rewrite (prescribes_unique _ _ _ _ H (X 3 p))]; apply X.
Qed.

Print Assumptions C59_total.
Print Assumptions C59_exact.
Print Assumptions C59_sound.
Print Assumptions C59_cells.
Print Assumptions C59_empty.
Print Assumptions C59_complete_refuted.
