(** Theorems for C25: the canonical form with match_redundancy=True (the eager treatment of set
    fields that the match makes no-ops). *)
From Coq Require Import ZifyBool ZifyNat ZifyN.
From Verif Require Import SpecEager Merge MatchWcProofs ActionProofs PerOutputProofs ActionSetProofs InstProofs MergeProofs SingleTableProofs Normalise NormaliseProofs EagerProofs PropNormalise EagerSem.
From Coq Require Import Lia.
Local Open Scope string_scope.
Local Open Scope list_scope.
Local Open Scope Z_scope.
Local Opaque NB WC_FULLWC layout oxm_fields registry_init.

Lemma built_table rules : (forall r, In r rules -> built r /\ set_output_rule r) -> set_output_table rules.
Proof. intros H r Hr. destruct (H r Hr) as [(xs & ws & H1 & H2) S0]. split; [eapply inst_wf_of; eauto|auto]. Qed.
(** An order in which Python iterates over a set of pairs. *)
Definition set_order (ord : list (string * Z) -> list (string * Z)) : Prop := forall x l, In x (ord l) <-> In x l.

(** ** C25 *)
(** Equal canonical forms iff every packet is treated alike: both tables miss, or both send the
    same headers on the same ports. Partial: rules that output to a port twice and VLAN ids set
    without the present bit are excluded, and a miss is not the same as sending nothing; the
    refutations below show that each is necessary. *)
Theorem C25_eager_partial : forall SHIFT reg reg2 ordA ordB A B acts a1 ba a2 bb, 0 < SHIFT -> SHIFT mod 2 = 0 ->
  set_order ordA -> set_order ordB -> rules_ok reg A -> rules_ok reg2 B ->
  (forall r, In r A -> built r /\ set_output_rule r) -> (forall r, In r B -> built r /\ set_output_rule r) -> NoDup acts ->
  normalise_naive SHIFT (Some ordA) acts A = Ok (a1, ba) -> normalise_naive SHIFT (Some ordB) a1 B = Ok (a2, bb) ->
  (check_equal_exact ba bb = true <-> forall p x y, table_sends A p x -> table_sends B p y -> same_sent x y).
Proof.
  intros SHIFT reg reg2 ordA ordB A B acts a1 ba a2 bb Hs He OA OB HA HB TA TB. apply (eager_decides SHIFT reg reg2 ordA ordB); auto using built_table.
Qed.
(** The same for the divide and conquer normaliser (the default). *)
Theorem C25_eager_dc_partial : forall SHIFT reg reg2 ordA ordB A B acts a1 ba a2 bb, 0 < SHIFT -> SHIFT mod 2 = 0 ->
  set_order ordA -> set_order ordB -> rules_ok reg A -> rules_ok reg2 B ->
  (forall r, In r A -> built r /\ set_output_rule r) -> (forall r, In r B -> built r /\ set_output_rule r) -> NoDup acts ->
  normalise_dc SHIFT (Some ordA) acts A = Ok (a1, ba) -> normalise_dc SHIFT (Some ordB) a1 B = Ok (a2, bb) ->
  (check_equal_exact ba bb = true <-> forall p x y, table_sends A p x -> table_sends B p y -> same_sent x y).
Proof.
  intros SHIFT reg reg2 ordA ordB A B acts a1 ba a2 bb Hs He OA OB HA HB TA TB N EA EB.
  assert (NA : A <> []) by (intros ->; discriminate EA). assert (NB' : B <> []) by (intros ->; discriminate EB).
  rewrite (dc_agrees_any SHIFT (Some ordA) reg A acts Hs He HA NA N) in EA.
  assert (N1 : NoDup a1).
  { destruct (all_entries (Some ordA) A) as [es|e] eqn:E; [|rewrite naive_eq, E in EA; destruct (one_table A); discriminate EA].
    destruct (entries_ok (Some ordA) reg A HA es E) as [W _]. eapply naive_sem in EA as (_ & X & _); eauto. }
  rewrite (dc_agrees_any SHIFT (Some ordB) reg2 B a1 Hs He HB NB' N1) in EB. now apply (C25_eager_partial SHIFT reg reg2 ordA ordB A B acts a1 ba a2 bb).
Qed.
(** Tables in which every packet hits a rule (single_table_condense produces such): the claim as
    stated, sending the same headers on the same ports. *)
Definition copies (o : option (list (Z * packet))) : list (Z * packet) := match o with Some x => x | None => [] end.
Theorem C25_eager_total_tables_partial : forall SHIFT reg reg2 ordA ordB A B acts a1 ba a2 bb, 0 < SHIFT -> SHIFT mod 2 = 0 ->
  set_order ordA -> set_order ordB -> rules_ok reg A -> rules_ok reg2 B ->
  (forall r, In r A -> built r /\ set_output_rule r) -> (forall r, In r B -> built r /\ set_output_rule r) ->
  (forall p, ~ first_match A p None) -> (forall p, ~ first_match B p None) -> NoDup acts ->
  normalise_dc SHIFT (Some ordA) acts A = Ok (a1, ba) -> normalise_dc SHIFT (Some ordB) a1 B = Ok (a2, bb) ->
  (check_equal_exact ba bb = true <-> forall p x y, table_sends A p x -> table_sends B p y -> same_copies (copies x) (copies y)).
Proof.
  intros SHIFT reg reg2 ordA ordB A B acts a1 ba a2 bb Hs He OA OB HA HB TA TB MA MB N EA EB.
  rewrite (C25_eager_dc_partial SHIFT reg reg2 ordA ordB A B acts a1 ba a2 bb); auto. split; intros H p x y X Y; specialize (H p x y X Y).
  - destruct X as [[X _]|(r & l & _ & _ & ->)]; [now elim (MA p)|]. destruct Y as [[Y _]|(r' & l' & _ & _ & ->)]; [now elim (MB p)|]. exact H.
  - destruct X as [[X _]|(r & l & _ & _ & ->)]; [now elim (MA p)|]. destruct Y as [[Y _]|(r' & l' & _ & _ & ->)]; [now elim (MB p)|]. exact H.
Qed.

(** *** Rules of the examples *)
Lemma mk_set_output prio tbl items acts : is_ok (al_of acts) = true -> Forall set_or_output acts -> NoDup (out_ports acts) ->
  built (mk_rule prio tbl items acts) /\ set_output_rule (mk_rule prio tbl items acts).
Proof. intros H F N. split; [now apply mk_built|]. intros l Hl. apply mk_runs in Hl; [subst l; auto|auto]. Qed.
Definition s_bos : slot := Slot "MPLS_BOS" 420 1.
Lemma s_bos_in : In s_bos layout.
Proof. vm_compute. tauto. Qed.
Definition m_bos : list (string * (Z * option Z)) := [("MPLS_BOS", (1, None))].
Definition id_ord (l : list (string * Z)) := l.
Lemma id_order : set_order id_ord.
Proof. intros x l. reflexivity. Qed.
Ltac ok_rules := let r := fresh in let H := fresh in intros r H; repeat (destruct H as [<-|H]; [apply mk_match_ok; reflexivity|]); destruct H.
Ltac ok_acts := let r := fresh in let H := fresh in intros r H; repeat (destruct H as [<-|H]; [vm_compute; reflexivity|]); destruct H.
Ltac each := let r := fresh in let H := fresh in intros r H; repeat (destruct H as [<-|H]; [|]); try destruct H.

(** The example of the docstring: a table that always sets the field, and one that does so only
    where it is not set already. *)
Definition always : list rule := [mk_rule 0 0 [] [SETF "MPLS_BOS" 1; OUTPUT 1]].
Definition where_needed : list rule := [mk_rule 20 0 m_bos [OUTPUT 1]; mk_rule 0 0 [] [SETF "MPLS_BOS" 1; OUTPUT 1]].
Definition never : list rule := [mk_rule 0 0 [] [OUTPUT 1]].
Lemma set_bos_ok : set_or_output (SETF "MPLS_BOS" 1).
Proof. right. exists s_bos, 1. split; [exact s_bos_in|]. split; [reflexivity|]. split; [cbn; lia|discriminate]. Qed.
Lemma out_ok k : set_or_output (OUTPUT k).
Proof. left. now exists k. Qed.
Lemma always_ok : forall r, In r always -> built r /\ set_output_rule r.
Proof. each. apply mk_set_output; [vm_compute; reflexivity|auto using set_bos_ok, out_ok|repeat constructor; intros []]. Qed.
Lemma where_needed_ok : forall r, In r where_needed -> built r /\ set_output_rule r.
Proof.
  each; (apply mk_set_output; [vm_compute; reflexivity|auto using set_bos_ok, out_ok|repeat constructor; intros []]).
Qed.
Lemma never_ok : forall r, In r never -> built r /\ set_output_rule r.
Proof. each. apply mk_set_output; [vm_compute; reflexivity|auto using out_ok|repeat constructor; intros []]. Qed.
Lemma def_match rules r p o : m_items (rmatch (rcore r)) = [] -> first_match (r :: rules) p o -> o = Some r.
Proof. intros E H. inversion H as [|r0 rs p0 A|r0 rs p0 o0 A B]; subst; [reflexivity|]. elim A. now apply def_accepts. Qed.
Lemma sends_always p x : table_sends always p x -> x = Some (sends [SETF "MPLS_BOS" 1; OUTPUT 1] p).
Proof.
  intros [[H _]|(r & l & H & R & ->)]; [apply def_match in H; [discriminate H|reflexivity]|].
  apply def_match in H; [|reflexivity]. injection H as ->. apply mk_runs in R; [now rewrite R|vm_compute; reflexivity].
Qed.
Lemma sends_never p x : table_sends never p x -> x = Some (sends [OUTPUT 1] p).
Proof.
  intros [[H _]|(r & l & H & R & ->)]; [apply def_match in H; [discriminate H|reflexivity]|].
  apply def_match in H; [|reflexivity]. injection H as ->. apply mk_runs in R; [now rewrite R|vm_compute; reflexivity].
Qed.
Lemma sends_where_needed p x : table_sends where_needed p x ->
  (p 420 = true /\ x = Some (sends [OUTPUT 1] p)) \/ (p 420 = false /\ x = Some (sends [SETF "MPLS_BOS" 1; OUTPUT 1] p)).
Proof.
  intros H.
  assert (D : forall o, first_match where_needed p o ->
    (p 420 = true /\ o = Some (mk_rule 20 0 m_bos [OUTPUT 1])) \/ (p 420 = false /\ o = Some (mk_rule 0 0 [] [SETF "MPLS_BOS" 1; OUTPUT 1]))).
  { intros o F. inversion F as [|r0 rs p0 A|r0 rs p0 o0 A B]; subst.
    - left. split; [|reflexivity]. apply (bos_accepts (mk_rule 20 0 m_bos [OUTPUT 1]) p eq_refl) in A. exact A.
    - right. apply def_match in B; [|reflexivity]. split; [|auto]. destruct (p 420) eqn:E; [|reflexivity]. elim A.
      now apply (bos_accepts (mk_rule 20 0 m_bos [OUTPUT 1]) p eq_refl). }
  destruct H as [[H _]|(r & l & H & R & ->)]; apply D in H as [[E1 E2]|[E1 E2]]; try discriminate E2; injection E2 as ->;
    (apply mk_runs in R; [|vm_compute; reflexivity]); subst l; auto.
Qed.
Lemma bos_noop p : p 420 = true -> heq (act_header (SETF "MPLS_BOS" 1) p) p.
Proof.
  intros H. apply noop_header; [exists s_bos, 1; split; [exact s_bos_in|]; split; [reflexivity|]; split; [cbn; lia|discriminate]|].
  unfold noopb. cbn [snd SETF]. apply (holds_bits s_bos 1 p s_bos_in). intros j Hj. cbn [sl_bits sl_off s_bos] in *. assert (j = 0) as -> by lia. exact H.
Qed.
Lemma ex_normalise rules : rules_ok registry_init rules -> (forall r, In r rules -> is_ok (rule_actions r) = true) -> one_table rules = true ->
  forall acts, NoDup acts -> exists a b, normalise_naive 30 (Some id_ord) acts rules = Ok (a, b) /\ NoDup a.
Proof.
  intros H A T acts N. destruct (eager_runs 30 id_ord registry_init rules acts) as (a & b & f & E & _ & N' & _); auto; try lia. eauto.
Qed.
Example C25_ex : exists a1 ba a2 bb a3 bc,
  normalise_naive 30 (Some id_ord) acts_init always = Ok (a1, ba) /\ normalise_naive 30 (Some id_ord) a1 where_needed = Ok (a2, bb) /\
  normalise_naive 30 (Some id_ord) a1 never = Ok (a3, bc) /\ check_equal_exact ba bb = true /\ check_equal_exact ba bc = false.
Proof.
  assert (N : NoDup acts_init) by (repeat constructor; intros []).
  destruct (ex_normalise always ltac:(ok_rules) ltac:(each; vm_compute; reflexivity) eq_refl acts_init N) as (a1 & ba & E1 & N1).
  destruct (ex_normalise where_needed ltac:(ok_rules) ltac:(each; vm_compute; reflexivity) eq_refl a1 N1) as (a2 & bb & E2 & N2).
  destruct (ex_normalise never ltac:(ok_rules) ltac:(each; vm_compute; reflexivity) eq_refl a1 N1) as (a3 & bc & E3 & N3).
  exists a1, ba, a2, bb, a3, bc. split; [exact E1|]. split; [exact E2|]. split; [exact E3|]. split.
  - refine (proj2 (C25_eager_partial 30 registry_init registry_init id_ord id_ord always where_needed acts_init a1 ba a2 bb ltac:(lia) eq_refl
      id_order id_order ltac:(ok_rules) ltac:(ok_rules) always_ok where_needed_ok N E1 E2) _).
    intros p x y X Y. apply sends_always in X as ->. apply sends_where_needed in Y as [[Hp ->]|[_ ->]]; cbn [same_sent]; [|apply copies_refl].
    unfold SETF. rewrite sends_set. apply ceq_copies. apply sends_cong. exact (bos_noop p Hp).
  - destruct (check_equal_exact ba bc) eqn:C; [|reflexivity].
    assert (C' := proj1 (C25_eager_partial 30 registry_init registry_init id_ord id_ord always never acts_init a1 ba a3 bc ltac:(lia) eq_refl
      id_order id_order ltac:(ok_rules) ltac:(ok_rules) always_ok never_ok N E1 E3) C). clear C. rename C' into C.
    set (p := fun _ : Z => false). exfalso.
    assert (F : forall r p, m_items (rmatch (rcore r)) = [] -> first_match [r] p (Some r)) by (intros r q Hr; constructor; now apply def_accepts).
    assert (S0 := C p (Some (sends [SETF "MPLS_BOS" 1; OUTPUT 1] p)) (Some (sends [OUTPUT 1] p))). cbn [same_sent] in S0.
    assert (S1 : same_copies (sends [SETF "MPLS_BOS" 1; OUTPUT 1] p) (sends [OUTPUT 1] p)).
    { apply S0; right; eexists; eexists; (split; [apply F; reflexivity|]; split; [apply mk_runs; [vm_compute; reflexivity|reflexivity]|reflexivity]). }
    destruct (S1 1 p) as [_ S2]. destruct S2 as (q & [Q|[]] & Hq); [exists p; split; [now left|reflexivity]|].
    specialize (Hq 420). injection Q as <-. vm_compute in Hq. discriminate Hq.
Qed.

(** *** What the claim needs *)
(** The claim without the three restrictions: for tables whose rules only set fields and output. *)
Definition plain_rule (r : rule) : Prop :=
  forall l, runs_actions r l -> forall a, In a l -> (exists k, a = OUTPUT k) \/ (exists f v, In f (map sl_name layout) /\ a = SETF f v).
Definition eager_says (A B : list rule) (b : bool) : Prop :=
  exists a1 ba a2 bb, normalise_naive 30 (Some id_ord) acts_init A = Ok (a1, ba) /\ normalise_naive 30 (Some id_ord) a1 B = Ok (a2, bb) /\
  check_equal_exact ba bb = b.
Lemma eager_says_iff A B b : rules_ok registry_init A -> rules_ok registry_init B ->
  (forall r, In r A -> is_ok (rule_actions r) = true) -> (forall r, In r B -> is_ok (rule_actions r) = true) -> one_table A = true -> one_table B = true ->
  ((forall p x y, eager_prescribes id_ord A p x -> eager_prescribes id_ord B p y -> x = y) <-> b = true) -> eager_says A B b.
Proof.
  intros HA HB OA OB TA TB Q0. assert (N : NoDup acts_init) by (repeat constructor; intros []).
  destruct (ex_normalise A HA OA TA acts_init N) as (a1 & ba & E1 & N1). destruct (ex_normalise B HB OB TB a1 N1) as (a2 & bb & E2 & N2).
  exists a1, ba, a2, bb. split; [exact E1|]. split; [exact E2|]. apply eq_true_iff_eq. rewrite <- Q0.
  apply (eager_equal_iff 30 registry_init registry_init id_ord id_ord A B acts_init a1 ba a2 bb ltac:(lia) eq_refl HA HB N E1 E2).
Qed.
Lemma mk_plain prio tbl items acts : is_ok (al_of acts) = true ->
  (forall a, In a acts -> (exists k, a = OUTPUT k) \/ (exists f v, In f (map sl_name layout) /\ a = SETF f v)) -> plain_rule (mk_rule prio tbl items acts).
Proof. intros H F l Hl. apply mk_runs in Hl; [subst l; exact F|exact H]. Qed.
Lemma run_def prio tbl acts p x : is_ok (al_of acts) = true -> table_sends [mk_rule prio tbl [] acts] p x <-> x = Some (sends acts p).
Proof.
  intros H. split.
  - intros [[F _]|(r & l & F & R & ->)]; [apply def_match in F; [discriminate F|reflexivity]|].
    apply def_match in F; [|reflexivity]. injection F as ->. apply mk_runs in R; [now rewrite R|exact H].
  - intros ->. right. exists (mk_rule prio tbl [] acts), acts. split; [constructor; now apply def_accepts|]. split; [|reflexivity]. now apply mk_runs.
Qed.

(** A table that drops some packets by a rule and misses on the others, against one that drops all:
    neither ever sends anything. *)
Definition drop_bos : list rule := [mk_rule 20 0 m_bos []].
Definition drop_all : list rule := [mk_rule 0 0 [] []].
Theorem C25_miss_is_drop_refuted : exists A B, (forall r, In r (A ++ B) -> built r /\ plain_rule r) /\ rules_ok registry_init (A ++ B) /\
  (forall p x y, table_sends A p x -> table_sends B p y -> same_copies (copies x) (copies y)) /\ eager_says A B false.
Proof.
  exists drop_bos, drop_all. split; [|split; [|split]].
  - each; (split; [apply mk_built; reflexivity|apply mk_plain; [reflexivity|intros a []]]).
  - ok_rules.
  - intros p x y X Y. apply run_def in Y as ->; [|reflexivity]. destruct X as [[_ ->]|(r & l & F & R & ->)]; [apply copies_refl|].
    destruct (first_match_in _ _ _ F) as [[<-|[]] _]. apply mk_runs in R as ->; [|reflexivity]. apply copies_refl.
  - apply eager_says_iff; [ok_rules|ok_rules|ok_acts|ok_acts|reflexivity|reflexivity|]. split; [|discriminate]. intros H.
    set (p := fun _ : Z => false). assert (X : first_match drop_bos p None).
    { constructor; [|constructor]. intros A. apply (bos_accepts (mk_rule 20 0 m_bos []) p eq_refl) in A. discriminate A. }
    assert (Y : first_match drop_all p (Some (mk_rule 0 0 [] []))) by (constructor; now apply def_accepts).
    assert (E := H p None (Some (eager_value id_ord [] p))). discriminate E; [left; auto|right].
    exists (mk_rule 0 0 [] []), []. split; [exact Y|]. split; [vm_compute; reflexivity|reflexivity].
Qed.
(** Output to the same port twice: the canonical form keeps only the last copy. *)
Definition twice : list rule := [mk_rule 0 0 [] [OUTPUT 1; SETF "MPLS_BOS" 1; OUTPUT 1]].
Theorem C25_two_copies_refuted : exists A B, (forall r, In r (A ++ B) -> built r /\ plain_rule r) /\ rules_ok registry_init (A ++ B) /\
  eager_says A B true /\ ~ (forall p x y, table_sends A p x -> table_sends B p y -> same_copies (copies x) (copies y)).
Proof.
  assert (PS : In "MPLS_BOS" (map sl_name layout)) by (change "MPLS_BOS" with (sl_name s_bos); apply in_map, s_bos_in).
  exists twice, always. split; [|split; [|split]].
  - each; (split; [apply mk_built; vm_compute; reflexivity|apply mk_plain; [vm_compute; reflexivity|]]);
      intros a Ha; repeat (destruct Ha as [<-|Ha]; [first [left; eexists; reflexivity|right; do 2 eexists; split; [exact PS|reflexivity]]|]); destruct Ha.
  - ok_rules.
  - apply eager_says_iff; [ok_rules|ok_rules|ok_acts|ok_acts|reflexivity|reflexivity|]. split; [reflexivity|]. intros _ p x y X Y.
    assert (EA : rule_actions (mk_rule 0 0 [] [OUTPUT 1; SETF "MPLS_BOS" 1; OUTPUT 1]) = Ok [(1, [SETF "MPLS_BOS" 1; OUTPUT 1])]) by (vm_compute; reflexivity).
    assert (EB : rule_actions (mk_rule 0 0 [] [SETF "MPLS_BOS" 1; OUTPUT 1]) = Ok [(1, [SETF "MPLS_BOS" 1; OUTPUT 1])]) by (vm_compute; reflexivity).
    destruct X as [[F _]|(r & pp & F & R & ->)]; apply def_match in F; try reflexivity; [discriminate F|]. injection F as ->. rewrite EA in R. injection R as <-.
    destruct Y as [[F _]|(r & pp & F & R & ->)]; apply def_match in F; try reflexivity; [discriminate F|]. injection F as ->. rewrite EB in R. injection R as <-. reflexivity.
  - intros H. set (p := fun _ : Z => false).
    assert (S0 := H p _ _ (proj2 (run_def 0 0 [OUTPUT 1; SETF "MPLS_BOS" 1; OUTPUT 1] p _ ltac:(vm_compute; reflexivity)) eq_refl)
                         (proj2 (run_def 0 0 [SETF "MPLS_BOS" 1; OUTPUT 1] p _ ltac:(vm_compute; reflexivity)) eq_refl)).
    cbn [copies] in S0. destruct (S0 1 p) as [S1 _]. destruct S1 as (q & [Q|[]] & Hq); [exists p; split; [now left|reflexivity]|].
    specialize (Hq 420). injection Q as <-. vm_compute in Hq. discriminate Hq.
Qed.
(** A VLAN id set without the present bit, where the packet already has that id: a no-op (OpenFlow
    sets the present bit, and so does Rule.merge), but not recognised. *)
Definition m_vid : list (string * (Z * option Z)) := [("VLAN_VID", (4101, None))].
Definition set_vid : list rule := [mk_rule 20 0 m_vid [SETF "VLAN_VID" 5; OUTPUT 1]].
Definition keep_vid : list rule := [mk_rule 20 0 m_vid [OUTPUT 1]].
Definition s_vid : slot := hd s_bos (filter (fun s => String.eqb (sl_name s) "VLAN_VID") layout).
Lemma s_vid_in : In s_vid layout.
Proof.
  assert (X : In s_vid (filter (fun s => String.eqb (sl_name s) "VLAN_VID") layout)) by (vm_compute; tauto). apply filter_In in X. tauto.
Qed.
Lemma vid_rules p acts x : is_ok (al_of acts) = true -> table_sends [mk_rule 20 0 m_vid acts] p x ->
  (x = None /\ ~ match_accepts m_vid p) \/ (x = Some (sends acts p) /\ match_accepts m_vid p).
Proof.
  intros H [[F ->]|(r & l & F & R & ->)].
  - left. split; [reflexivity|]. inversion F as [|r0 rs p0 A|r0 rs p0 o0 A B]; subst. exact A.
  - right. destruct (first_match_in _ _ _ F) as [[<-|[]] A]. apply mk_runs in R as ->; [|exact H]. split; [reflexivity|exact A].
Qed.
Lemma vid_has p : match_accepts m_vid p <-> forall j, 0 <= j < 13 -> p (sl_off s_vid + j) = Z.testbit 4101 j.
Proof.
  assert (H := holds_bits s_vid 4101 p s_vid_in). rewrite holdsb_spec in H. change (sl_bits s_vid) with 13 in H. rewrite <- H. unfold holds, match_accepts, m_vid. cbn [fst snd].
  change (sl_name s_vid) with "VLAN_VID". split; [intros X; apply X; now left|intros X it [<-|[]]; exact X].
Qed.
Theorem C25_vlan_present_bit_refuted : exists A B, (forall r, In r (A ++ B) -> built r /\ plain_rule r) /\ rules_ok registry_init (A ++ B) /\
  (forall p x y, table_sends A p x -> table_sends B p y -> same_sent x y) /\ eager_says A B false.
Proof.
  assert (PS : In "VLAN_VID" (map sl_name layout)) by (change "VLAN_VID" with (sl_name s_vid); apply in_map, s_vid_in).
  exists set_vid, keep_vid. split; [|split; [|split]].
  - each; (split; [apply mk_built; vm_compute; reflexivity|apply mk_plain; [vm_compute; reflexivity|]]);
      intros a Ha; repeat (destruct Ha as [<-|Ha]; [first [left; eexists; reflexivity|right; do 2 eexists; split; [exact PS|reflexivity]]|]); destruct Ha.
  - ok_rules.
  - intros p x y X Y. apply vid_rules in X; [|vm_compute; reflexivity]. apply vid_rules in Y; [|vm_compute; reflexivity].
    destruct X as [[-> X]|[-> X]], Y as [[-> Y]|[-> Y]]; try contradiction; [exact Logic.I|]. cbn [same_sent].
    unfold SETF. rewrite sends_set. apply ceq_copies, sends_cong. clear Y. assert (X2 := proj1 (vid_has p) X).
    intros i. rewrite act_header_rw. unfold apply_rw, ract. cbn [fst snd]. change (String.eqb "SET_FIELD" "SET_FIELD") with true. cbv iota. change (vid_value "VLAN_VID" 5) with 4101.
    unfold rset. destruct (slot_at i) as [t|] eqn:Et; [|reflexivity]. destruct (String.eqb_spec (sl_name t) "VLAN_VID") as [E|]; [|reflexivity]. cbn [andb mask_bit].
    apply slot_at_in in Et as [It Ht]. assert (t = s_vid) as -> by (apply slot_name_inj; [auto|apply s_vid_in|exact E]). change (sl_bits s_vid) with 13 in Ht. rewrite <- X2 by lia. f_equal. lia.
  - apply eager_says_iff; [ok_rules|ok_rules|ok_acts|ok_acts|reflexivity|reflexivity|]. split; [|discriminate]. intros H.
    set (p := fun i : Z => Z.testbit 4101 (i - sl_off s_vid)). assert (Hp : match_accepts m_vid p) by (apply (proj2 (vid_has p)); intros j Hj; unfold p; f_equal; lia).
    set (ra := mk_rule 20 0 m_vid [SETF "VLAN_VID" 5; OUTPUT 1]). set (rb := mk_rule 20 0 m_vid [OUTPUT 1]).
    assert (EA : rule_actions ra = Ok [(1, [SETF "VLAN_VID" 5; OUTPUT 1])]) by (vm_compute; reflexivity).
    assert (EB : rule_actions rb = Ok [(1, [OUTPUT 1])]) by (vm_compute; reflexivity).
    assert (FA : first_match set_vid p (Some ra)) by (constructor; exact Hp). assert (FB : first_match keep_vid p (Some rb)) by (constructor; exact Hp).
    assert (E := H p _ _ (or_intror (ex_intro _ ra (ex_intro _ _ (conj FA (conj EA eq_refl))))) (or_intror (ex_intro _ rb (ex_intro _ _ (conj FB (conj EB eq_refl)))))).
    unfold eager_value, id_ord in E. cbn [set_pairs flat_map fst snd SETF OUTPUT app nodup in_dec list_rect filter] in E.
    assert (Hh : holdsb p ("VLAN_VID", 5) = false).
    { destruct (holdsb p ("VLAN_VID", 5)) eqn:Eh; [|reflexivity]. assert (Q := proj1 (holds_bits s_vid 5 p s_vid_in) Eh 12 ltac:(change (sl_bits s_vid) with 13; lia)).
      unfold p in Q. replace (sl_off s_vid + 12 - sl_off s_vid) with 12 in Q by lia. discriminate Q. }
    simpl in E. rewrite Hh in E. discriminate E.
Qed.
Print Assumptions C25_eager_partial.
Print Assumptions C25_eager_dc_partial.
Print Assumptions C25_eager_total_tables_partial.
Print Assumptions C25_miss_is_drop_refuted.
Print Assumptions C25_two_copies_refuted.
Print Assumptions C25_vlan_present_bit_refuted.
