(** Theorems for C86: reading the built-in flows of a Table Type Pattern. *)
From Verif Require Import Ttp SpecTtp ActionProofs ActionSetProofs SpecRyu RyuProofs.
From Coq Require Import Lia ZifyBool ZifyNat.
Local Open Scope string_scope.
Local Open Scope list_scope.
Local Open Scope Z_scope.
Local Opaque registry_init oxm_fields.

(** *** One action *)
Lemma dollar f : String.prefix "$" f = true <-> exists s, f = String "$"%char s.
Proof.
  destruct f as [|c s]; cbn [String.prefix].
  - split; [discriminate|]. intros [s H]. discriminate.
  - destruct (ascii_dec "$" c) as [<-|N].
    + split; eauto. intros _. destruct s; reflexivity.
    + split; [discriminate|]. intros [t H]. injection H as -> _. contradiction.
Qed.
Lemma action_says append ret a x : says a x -> action_from_ttp append ret a = append ret x.
Proof.
  intros H. destruct H as [n k f v H|n k f v H|k f v H].
  - cbn in H. repeat (destruct H as [<-|H]; [reflexivity|]). contradiction.
  - cbn in H. repeat (destruct H as [<-|H]; [reflexivity|]). contradiction.
  - unfold action_from_ttp. cbn [ta_action ta_field ta_value]. cbn [String.eqb Ascii.eqb Bool.eqb].
    destruct (String.prefix "$" f) eqn:E; [|reflexivity]. apply dollar in E as [s ->]. now elim (H s).
Qed.
Lemma action_mute append ret a : (forall x, ~ says a x) -> ta_action a <> "GROUP" -> action_from_ttp append ret a = Ok ret.
Proof.
  intros H G. destruct a as [n k f v]. cbn [ta_action] in G. unfold action_from_ttp. cbn [ta_action ta_field ta_value ta_arg].
  repeat match goal with
  | |- context [String.eqb n ?s] => destruct (String.eqb_spec n s) as [->|?];
      [first [exfalso; apply (H (s, VNone)); constructor; cbn; tauto | exfalso; apply (H (s, VInt k)); constructor; cbn; tauto | contradiction | idtac]|]
  end; [|reflexivity].
  destruct (String.prefix "$" f) eqn:E; [reflexivity|]. cbn [negb]. destruct v as [v|v]; [|reflexivity].
  exfalso. apply (H ("SET_FIELD", VSet f v)). constructor. intros s ->. rewrite (proj2 (dollar _)) in E by eauto. discriminate.
Qed.
Lemma action_group append ret a : ta_action a = "GROUP" -> action_from_ttp append ret a = Err NotImplementedError.
Proof. intros H. unfold action_from_ttp. rewrite H. reflexivity. Qed.
Lemma says_dec a : (exists x, says a x) \/ (forall x, ~ says a x).
Proof.
  destruct a as [n k f v].
  destruct (in_dec string_dec n bare_names) as [H|H]; [left; eexists; now apply says_bare|].
  destruct (in_dec string_dec n number_names) as [H'|H']; [left; eexists; now apply says_number|].
  destruct (string_dec n "SET_FIELD") as [->|N].
  - destruct (String.prefix "$" f) eqn:E.
    + right. apply dollar in E as [s ->]. intros x X. inversion X as [| |? ? ? Hf]; subst; try contradiction. now apply (Hf s).
    + destruct v as [v|v].
      * left. eexists. apply says_set. intros s ->. rewrite (proj2 (dollar _)) in E by eauto. discriminate.
      * right. intros x X. inversion X; subst; contradiction.
  - right. intros x X. inversion X; subst; contradiction.
Qed.
(** A field that can be set is one of OpenFlow 1.3. *)
Definition settable (a : ttp_action) : Prop := ta_action a = "SET_FIELD" -> In (ta_field a) (map fst wire_fields).
Lemma says_ordinary a x : says a x -> settable a -> ordinary x.
Proof.
  intros H S. destruct H as [n k f v H|n k f v H|k f v H].
  - left. auto.
  - right. left. split; [|eauto]. cbn in *. tauto.
  - right. right. split; [reflexivity|]. exists f, v. split; [reflexivity|]. now apply S.
Qed.
Lemma ordinary_comparable a b : ordinary a -> ordinary b -> fst a <> "GROUP" -> act_cmp a b <> None.
Proof.
  intros Ha Hb _. unfold act_cmp. destruct (String.compare (fst a) (fst b)) eqn:E; try discriminate. apply String.compare_eq_iff in E.
  assert (K : forall n l l', In n l -> In n l' -> forallb (fun x => negb (str_in x l')) l = true -> False).
  { intros n l l' H H' F. rewrite forallb_forall in F. specialize (F n H). apply negb_true_iff in F.
    assert (T : str_in n l' = true) by (apply existsb_exists; exists n; split; [auto|apply String.eqb_refl]). congruence. }
  destruct a as [n v], b as [n' v']. cbn [fst snd] in *. subst n'.
  destruct Ha as [[H ->]|[[H (k & ->)]|[-> (f & k & -> & Hf)]]]; destruct Hb as [[H' ->]|[[H' (k' & ->)]|[Hn (f' & k' & -> & Hf')]]]; try discriminate;
    try (subst n); try (exfalso; eapply K; [exact H|exact H'|reflexivity]); try (exfalso; eapply K; [exact H'|exact H|reflexivity]);
    try (exfalso; cbn in H; repeat (destruct H as [H|H]; [discriminate|]); contradiction);
    try (exfalso; cbn in H'; repeat (destruct H' as [H'|H']; [discriminate|]); contradiction).
  cbn. destruct (String.compare f f'); discriminate.
Qed.
(** *** A list of actions *)
Lemma actions_definite append l : forall xs ret, definite_say l xs -> (forall a, In a l -> ta_action a <> "GROUP") ->
  rfold (action_from_ttp append) l ret = rfold append xs ret.
Proof.
  intros xs ret H. revert ret. induction H as [|a l x xs Hs H IH|a l xs Hs H IH]; intros ret G; [reflexivity| |]; cbn [rfold].
  - rewrite (action_says append ret a x Hs). destruct (append ret x) as [r|e]; [|reflexivity]. cbn [rbind]. apply IH. intros b Hb. apply G. now right.
  - rewrite (action_mute append ret a Hs) by (apply G; now left). cbn [rbind]. apply IH. intros b Hb. apply G. now right.
Qed.
Lemma definite_ex l : exists xs, definite_say l xs.
Proof.
  induction l as [|a l [xs IH]]; [exists []; constructor|]. destruct (says_dec a) as [[x H]|H]; [exists (x :: xs)|exists xs]; now constructor.
Qed.
Lemma actions_no_group append l : forall ret s, rfold (action_from_ttp append) l ret = Ok s -> forall a, In a l -> ta_action a <> "GROUP".
Proof.
  induction l as [|b l IH]; intros ret s E a H; [contradiction|]. cbn [rfold] in E. apply rbind_ok in E as (r & E1 & E2).
  destruct H as [<-|H]; [|eapply IH; eauto]. intros G. rewrite (action_group _ _ _ G) in E1. discriminate.
Qed.

(** ** C86 *)
(** A conversion that succeeds: the match has the fields of the flow; every kind of instruction is the last one of the flow of this kind;
    the actions are built from the definite actions of that instruction, and there are no others in the result. *)
Theorem C86_what_is_read : forall r f r' c, rule_from_ttp r f = Ok (r', c) ->
  tl_priority f = TInt (priority c) /\ table c = tl_table f /\ cookie c = None /\
  (exists items, Forall2 (fun t i => tf_name t = fst i /\ tf_value t = TInt (fst (snd i)) /\ tf_mask t = snd (snd i)) (tl_match f) items /\
     match_append_all r match_new items = (r', rmatch c)) /\
  (forall i, in_force (tl_instructions f) "APPLY_ACTIONS" i -> exists xs, definite_say (ti_actions i) xs /\ al_of xs = Ok (apply_actions (inst c))) /\
  (forall i, in_force (tl_instructions f) "WRITE_ACTIONS" i -> exists xs, definite_say (ti_actions i) xs /\ as_of xs = Ok (write_actions (inst c))) /\
  (forall i, in_force (tl_instructions f) "GOTO_TABLE" i -> ti_goto i = goto_table (inst c)) /\
  (forall i, in_force (tl_instructions f) "CLEAR_ACTIONS" i -> clear_actions (inst c) = true) /\
  (absent (tl_instructions f) "APPLY_ACTIONS" -> apply_actions (inst c) = al_empty) /\
  (absent (tl_instructions f) "WRITE_ACTIONS" -> write_actions (inst c) = al_empty) /\
  (absent (tl_instructions f) "GOTO_TABLE" -> goto_table (inst c) = None) /\
  (absent (tl_instructions f) "CLEAR_ACTIONS" -> clear_actions (inst c) = false) /\
  write_metadata (inst c) = None /\ meter (inst c) = None.
Proof.
  intros r f r' c E. unfold rule_from_ttp in E. destruct (tl_priority f) as [p|]; [|discriminate].
  apply rbind_ok in E as ([r1 m] & Em & E). apply rbind_ok in E as (is & Ei & E). injection E as <- <-. cbn [priority table cookie rmatch inst].
  split; [reflexivity|]. split; [reflexivity|]. split; [reflexivity|]. split.
  - clear Ei. revert Em. generalize match_new as m0. revert r. induction (tl_match f) as [|t l IH]; intros r m0 E; cbn [match_from_ttp] in E.
    + injection E as <- <-. exists []. split; [constructor|reflexivity].
    + destruct (tf_value t) as [v|] eqn:Ev; [|discriminate]. destruct (match_append r m0 (tf_name t) v (tf_mask t)) as [r2 m2] eqn:Ea.
      apply IH in E as (items & F & E). exists ((tf_name t, (v, tf_mask t)) :: items). split; [constructor; auto|].
      cbn [match_append_all]. rewrite Ea. exact E.
  - clear Em.
    assert (P : forall l a b, rfold instruction_from_ttp l a = Ok b ->
      (forall i, in_force l "APPLY_ACTIONS" i -> exists xs, definite_say (ti_actions i) xs /\ al_of xs = Ok (apply_actions b)) /\
      (forall i, in_force l "WRITE_ACTIONS" i -> exists xs, definite_say (ti_actions i) xs /\ as_of xs = Ok (write_actions b)) /\
      (forall i, in_force l "GOTO_TABLE" i -> ti_goto i = goto_table b) /\
      (forall i, in_force l "CLEAR_ACTIONS" i -> clear_actions b = true) /\
      (absent l "APPLY_ACTIONS" -> apply_actions b = apply_actions a) /\
      (absent l "WRITE_ACTIONS" -> write_actions b = write_actions a) /\
      (absent l "GOTO_TABLE" -> goto_table b = goto_table a) /\
      (absent l "CLEAR_ACTIONS" -> clear_actions b = clear_actions a) /\
      write_metadata b = write_metadata a /\ meter b = meter a).
    { induction l as [|i l IH]; intros a b E; cbn [rfold] in E.
      - injection E as <-. assert (N : forall n i, ~ in_force [] n i) by (intros n i (x & y & H & _); destruct x; discriminate).
        repeat split; try reflexivity; intros i H; now elim (N _ _ H).
      - apply rbind_ok in E as (a1 & E1 & E2). apply IH in E2 as (A & W & G & C & A0 & W0 & G0 & C0 & M & T). clear IH.
        assert (F : forall n j, in_force (i :: l) n j -> in_force l n j \/ (j = i /\ ti_instruction i = n /\ absent l n)).
        { intros n j (x & y & H & Hn & Hy). destruct x as [|z x]; injection H as <- ->; [right|left]; [auto|]. exists x, y. auto. }
        assert (B : forall n, absent (i :: l) n -> absent l n /\ ti_instruction i <> n).
        { intros n H. split; [intros j Hj; apply H; now right|apply H; now left]. }
        unfold instruction_from_ttp in E1.
        destruct (String.eqb_spec (ti_instruction i) "GOTO_TABLE") as [N|N];
          [destruct (ti_goto i) as [t|] eqn:Et; [|discriminate]; injection E1 as <-; cbn in *
          |destruct (String.eqb_spec (ti_instruction i) "CLEAR_ACTIONS") as [N1|N1];
            [injection E1 as <-; cbn in *
            |destruct (String.eqb_spec (ti_instruction i) "APPLY_ACTIONS") as [N2|N2];
              [apply rbind_ok in E1 as (s & Es & E1); injection E1 as <-; cbn in *
              |destruct (String.eqb_spec (ti_instruction i) "WRITE_ACTIONS") as [N3|N3];
                [apply rbind_ok in E1 as (s & Es & E1); injection E1 as <-; cbn in *|discriminate]]]];
        (repeat split; auto;
         try (intros H; apply B in H as [H1 H2]; first [contradiction | congruence | now rewrite ?A0, ?W0, ?G0, ?C0 by exact H1]);
         intros j H; apply F in H as [H|(-> & H1 & H2)]; eauto 3; try congruence;
         try (rewrite ?G0, ?C0 by exact H2; congruence)).
        + destruct (definite_ex (ti_actions i)) as [xs D]. exists xs. split; [exact D|]. rewrite A0 by exact H2.
          unfold actions_from_ttp in Es. rewrite (actions_definite _ _ _ _ D (actions_no_group _ _ _ _ Es)) in Es. exact Es.
        + destruct (definite_ex (ti_actions i)) as [xs D]. exists xs. split; [exact D|]. rewrite W0 by exact H2.
          unfold actions_from_ttp in Es. rewrite (actions_definite _ _ _ _ D (actions_no_group _ _ _ _ Es)) in Es. exact Es. }
    exact (P _ _ _ Ei).
Qed.
(** Without indefinite actions nothing is lost. *)
Lemma definite_all l xs : definite_say l xs -> (forall a, In a l -> exists x, says a x) -> all_say l xs.
Proof.
  induction 1 as [|a l x xs Hs H IH|a l xs Hs H IH]; intros D; [constructor| |].
  - constructor; [exact Hs|]. apply IH. intros b Hb. apply D. now right.
  - exfalso. destruct (D a (or_introl eq_refl)) as [x Hx]. now apply (Hs x).
Qed.
(** The full claim: a conversion that succeeds keeps every action of the flow. Missing: flows with actions that are not definite,
    for which it is false. *)
Theorem C86_all_actions_partial : forall r f r' c i, rule_from_ttp r f = Ok (r', c) ->
  (forall a, In a (ti_actions i) -> exists x, says a x) ->
  (in_force (tl_instructions f) "APPLY_ACTIONS" i -> exists xs, all_say (ti_actions i) xs /\ al_of xs = Ok (apply_actions (inst c))) /\
  (in_force (tl_instructions f) "WRITE_ACTIONS" i -> exists xs, all_say (ti_actions i) xs /\ as_of xs = Ok (write_actions (inst c))).
Proof.
  intros r f r' c i E D. destruct (C86_what_is_read r f r' c E) as (_ & _ & _ & _ & A & W & _). split; intros H.
  - destruct (A i H) as (xs & S & X). exists xs. split; [now apply definite_all|exact X].
  - destruct (W i H) as (xs & S & X). exists xs. split; [now apply definite_all|exact X].
Qed.
(** When the conversion succeeds, for flows that set fields of OpenFlow 1.3. *)
Definition readable (f : ttp_flow) : Prop :=
  (exists p, tl_priority f = TInt p) /\ (forall t, In t (tl_match f) -> exists v, tf_value t = TInt v) /\
  (forall i, In i (tl_instructions f) -> In (ti_instruction i) ["GOTO_TABLE"; "CLEAR_ACTIONS"; "APPLY_ACTIONS"; "WRITE_ACTIONS"] /\
     (ti_instruction i = "GOTO_TABLE" -> ti_goto i <> None) /\
     (ti_instruction i = "APPLY_ACTIONS" \/ ti_instruction i = "WRITE_ACTIONS" -> forall a, In a (ti_actions i) -> ta_action a <> "GROUP")).
Lemma definite_ordinary l xs : definite_say l xs -> (forall a, In a l -> settable a) -> Forall (fun x => ordinary x /\ fst x <> "GROUP") xs.
Proof.
  induction 1 as [|a l x xs Hs H IH|a l xs Hs H IH]; intros S; [constructor| |apply IH; intros b Hb; apply S; now right].
  constructor; [|apply IH; intros b Hb; apply S; now right]. split; [apply (says_ordinary a); auto; apply S; now left|].
  destruct Hs as [n k f v Hs|n k f v Hs|k f v Hs]; [| |discriminate]; cbn in *; repeat (destruct Hs as [<-|Hs]; [discriminate|]); contradiction.
Qed.
Lemma apply_total l : (forall a, In a l -> settable a /\ ta_action a <> "GROUP") -> exists s, actions_from_ttp al_append l = Ok s.
Proof.
  intros H. destruct (definite_ex l) as [xs D]. unfold actions_from_ttp. rewrite (actions_definite _ _ _ _ D) by (intros a Ha; apply H; exact Ha).
  assert (O := definite_ordinary l xs D (fun a Ha => proj1 (H a Ha))). rewrite Forall_forall in O.
  apply al_of_total. intros a b Ha Hb. destruct (O a Ha), (O b Hb). split; [now apply ordinary_known|]. split; [now apply ordinary_known|]. now apply ordinary_comparable.
Qed.
Lemma write_total l : (forall a, In a l -> settable a /\ ta_action a <> "GROUP") -> exists s, actions_from_ttp as_append l = Ok s.
Proof.
  intros H. destruct (definite_ex l) as [xs D]. unfold actions_from_ttp. rewrite (actions_definite _ _ _ _ D) by (intros a Ha; apply H; exact Ha).
  assert (O := definite_ordinary l xs D (fun a Ha => proj1 (H a Ha))). apply as_of_total. eapply Forall_impl; [|exact O].
  intros a [Ha _]. now apply ordinary_known.
Qed.
Theorem C86_when_it_succeeds : forall r f, (forall i a, In i (tl_instructions f) -> In a (ti_actions i) -> settable a) ->
  ((exists x, rule_from_ttp r f = Ok x) <-> readable f).
Proof.
  intros r f S. unfold rule_from_ttp, readable. split.
  - intros [x E]. destruct (tl_priority f) as [p|]; [|discriminate]. apply rbind_ok in E as ([r1 m] & Em & E). apply rbind_ok in E as (is & Ei & E). clear E.
    split; [eauto|]. split.
    + clear Ei. revert r m r1 Em. generalize match_new as m0. induction (tl_match f) as [|t l IH]; intros m0 r m r1 E u Hu; [contradiction|].
      cbn [match_from_ttp] in E. destruct (tf_value t) as [v|] eqn:Ev; [|discriminate]. destruct (match_append r m0 (tf_name t) v (tf_mask t)) as [r2 m2].
      destruct Hu as [<-|Hu]; [eauto|]. eapply IH; eauto.
    + clear Em S. unfold instructions_from_ttp in Ei. revert Ei. generalize inst_empty as a0. induction (tl_instructions f) as [|i l IH]; intros a0 E j Hj; [contradiction|].
      cbn [rfold] in E. apply rbind_ok in E as (a1 & E1 & E2). destruct Hj as [<-|Hj]; [|eapply IH; eauto]. clear IH E2. unfold instruction_from_ttp in E1.
      destruct (String.eqb_spec (ti_instruction i) "GOTO_TABLE") as [N|N]; [rewrite N; split; [cbn; tauto|]; split; [intros _ X; rewrite X in E1; discriminate|intros [X|X]; discriminate]|].
      destruct (String.eqb_spec (ti_instruction i) "CLEAR_ACTIONS") as [N1|N1]; [rewrite N1; split; [cbn; tauto|]; split; [discriminate|intros [X|X]; discriminate]|].
      destruct (String.eqb_spec (ti_instruction i) "APPLY_ACTIONS") as [N2|N2];
        [rewrite N2; split; [cbn; tauto|]; split; [discriminate|]; intros _; apply rbind_ok in E1 as (s & Es & _); exact (actions_no_group _ _ _ _ Es)|].
      destruct (String.eqb_spec (ti_instruction i) "WRITE_ACTIONS") as [N3|N3];
        [rewrite N3; split; [cbn; tauto|]; split; [discriminate|]; intros _; apply rbind_ok in E1 as (s & Es & _); exact (actions_no_group _ _ _ _ Es)|discriminate].
  - intros ([p ->] & M & I).
    assert (Em : exists x, match_from_ttp r match_new (tl_match f) = Ok x).
    { revert r M. generalize match_new as m0. clear. induction (tl_match f) as [|t l IH]; intros m0 r M; [eexists; reflexivity|]. cbn [match_from_ttp].
      destruct (M t (or_introl eq_refl)) as [v ->]. destruct (match_append r m0 (tf_name t) v (tf_mask t)) as [r2 m2]. apply IH. intros u Hu. apply M. now right. }
    destruct Em as [[r1 m] ->]. cbn [rbind].
    assert (Ei : exists x, instructions_from_ttp (tl_instructions f) = Ok x).
    { unfold instructions_from_ttp. revert S I. generalize inst_empty as a0. clear. induction (tl_instructions f) as [|i l IH]; intros a0 S I; [eexists; reflexivity|].
      cbn [rfold]. assert (E : exists a1, instruction_from_ttp a0 i = Ok a1).
      { destruct (I i (or_introl eq_refl)) as (H1 & H2 & H3). unfold instruction_from_ttp. assert (Si := fun a => S i a (or_introl eq_refl)).
        destruct H1 as [H1|[H1|[H1|[H1|[]]]]]; rewrite <- H1 in *; cbn [String.eqb Ascii.eqb Bool.eqb].
        - destruct (ti_goto i); [eexists; reflexivity|now elim H2].
        - eexists; reflexivity.
        - destruct (apply_total (ti_actions i)) as [s ->]; [intros a Ha; split; [auto|apply H3; auto]|]. eexists; reflexivity.
        - destruct (write_total (ti_actions i)) as [s ->]; [intros a Ha; split; [auto|apply H3; auto]|]. eexists; reflexivity. }
      destruct E as [a1 ->]. cbn [rbind]. apply IH; [intros j a Hj; apply S; now right|intros j Hj; apply I; now right]. }
    destruct Ei as [is ->]. cbn [rbind]. eexists; reflexivity.
Qed.
(** A flow that rewrites the destination to the value of a variable, and sends the packet out *)
Definition flow86 (v : tval) : ttp_flow :=
  TFlow (TInt 7) [TField "ETH_TYPE" (TInt 0x800) None; TField "IPV4_DST" (TInt 0x0A000001) (Some 0xFFFFFFFF)]
    [TInst "CLEAR_ACTIONS" None []; TInst "APPLY_ACTIONS" None [TAct "SET_FIELD" 0 "IPV4_DST" v; TAct "OUTPUT" 3 "" (TText "")]; TInst "GOTO_TABLE" (Some 20) []] 10.
Local Transparent registry_init oxm_fields.
(** is read as one that only sends it out, *)
Theorem C86_all_actions_refuted : exists f r' c i xs, rule_from_ttp registry_init f = Ok (r', c) /\ in_force (tl_instructions f) "APPLY_ACTIONS" i /\
  map ta_action (ti_actions i) = ["SET_FIELD"; "OUTPUT"] /\ al_iter (apply_actions (inst c)) = xs /\ xs = [("OUTPUT", VInt 3)].
Proof.
  exists (flow86 (TText "<dst>")). do 4 eexists. split; [vm_compute; reflexivity|]. split; [|split; [|split; reflexivity]].
  - exists [TInst "CLEAR_ACTIONS" None []], [TInst "GOTO_TABLE" (Some 20) []]. split; [reflexivity|]. split; [reflexivity|].
    intros j [<-|[]]. discriminate.
  - reflexivity.
Qed.
(** and an action this module does not know is left out. *)
Theorem C86_unknown_action_refuted : exists a, ta_action a = "EXPERIMENTER" /\ actions_from_ttp al_append [a; TAct "OUTPUT" 3 "" (TText "")] = al_of [("OUTPUT", VInt 3)].
Proof. exists (TAct "EXPERIMENTER" 0 "" (TText "")). split; [reflexivity|]. vm_compute. reflexivity. Qed.
Example C86_ex : exists c, rule_from_ttp registry_init (flow86 (TInt 5)) = Ok (registry_init, c) /\ priority c = 7 /\ table c = 10 /\
  al_iter (apply_actions (inst c)) = [("SET_FIELD", VSet "IPV4_DST" 5); ("OUTPUT", VInt 3)] /\ goto_table (inst c) = Some 20 /\ clear_actions (inst c) = true /\
  dict_get (m_items (rmatch c)) "IPV4_DST" = Some (0x0A000001, None, 12).
Proof. eexists. split; [vm_compute; reflexivity|]. vm_compute. repeat split. Qed.
Example C86_ex_readable : readable (flow86 (TInt 5)) /\ (forall i a, In i (tl_instructions (flow86 (TInt 5))) -> In a (ti_actions i) -> settable a).
Proof.
  split.
  - split; [exists 7; reflexivity|]. split.
    + intros t [<-|[<-|[]]]; eexists; reflexivity.
    + intros i [<-|[<-|[<-|[]]]]; cbn; (split; [tauto|]); (split; [intros; discriminate|]); intros [X|X]; try discriminate. intros a [<-|[<-|[]]]; discriminate.
  - intros i a Hi Ha. cbn in Hi. destruct Hi as [<-|[<-|[<-|[]]]]; cbn in Ha; try contradiction.
    destruct Ha as [<-|[<-|[]]]; intros H; [cbn; tauto|discriminate].
Qed.
Print Assumptions C86_what_is_read.
Print Assumptions C86_all_actions_partial.
Print Assumptions C86_when_it_succeeds.
Print Assumptions C86_all_actions_refuted.
Print Assumptions C86_unknown_action_refuted.
