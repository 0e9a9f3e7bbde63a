(** ActionList._remove_redundant: totality and effect. *)
From Verif Require Export ExecProofs.
Local Open Scope string_scope.
Local Open Scope list_scope.
Local Open Scope Z_scope.

Notation PV := (Tun "PUSH_VLAN" "POP_VLAN" ["VLAN_VID"; "VLAN_PCP"]).
Notation PM := (Tun "PUSH_MPLS" "POP_MPLS" ["MPLS_LABEL"; "MPLS_TC"; "MPLS_BOS"]).
Notation PB := (Tun "PUSH_PBB" "POP_PBB" ["ETH_DST"; "ETH_SRC"; "PBB_ISID"]).

(** ** Termination *)
Lemma drop_pair_len ct l : forall l', drop_pair ct l = Some l' -> (length l' < length l)%nat.
Proof.
  induction l as [|a l IH]; intros l' H; cbn [drop_pair] in H; [discriminate|].
  destruct (String.eqb (fst a) (tun_push ct)); [discriminate|].
  destruct (String.eqb (fst a) (tun_pop ct)); [injection H as <-; cbn; lia|].
  destruct (sets_one_of (tun_fields ct) a); [apply IH in H; cbn; lia|].
  destruct (drop_pair ct l) as [r|]; [|discriminate]. injection H as <-. specialize (IH _ eq_refl). cbn. lia.
Qed.
Lemma drop_first_len l : forall l', drop_first_pair l = Some l' -> (length l' < length l)%nat.
Proof.
  induction l as [|a l IH]; intros l' H; cbn [drop_first_pair] in H; [discriminate|].
  destruct (push_of a) as [ct|].
  - destruct (drop_pair ct l) as [r|] eqn:E; [injection H as <-; apply drop_pair_len in E; cbn; lia|].
    destruct (drop_first_pair l) as [r|]; [|discriminate]. injection H as <-. specialize (IH _ eq_refl). cbn. lia.
  - destruct (drop_first_pair l) as [r|]; [|discriminate]. injection H as <-. specialize (IH _ eq_refl). cbn. lia.
Qed.
Lemma drop_pairs_total fuel : forall l, (length l < fuel)%nat -> exists l', drop_pairs fuel l = Ok l' /\ drop_first_pair l' = None.
Proof.
  induction fuel as [|fuel IH]; intros l H; [lia|]. cbn [drop_pairs].
  destruct (drop_first_pair l) as [r|] eqn:E; [|eauto]. apply IH. apply drop_first_len in E. lia.
Qed.

(** ** The result only contains actions of the list, in order *)
Inductive sublist {A} : list A -> list A -> Prop :=
| sub_nil l : sublist [] l
| sub_skip x l r : sublist l r -> sublist l (x :: r)
| sub_keep x l r : sublist l r -> sublist (x :: l) (x :: r).
Lemma sublist_refl {A} (l : list A) : sublist l l.
Proof. induction l; [apply sub_nil|now apply sub_keep]. Qed.
Lemma sublist_trans {A} (a b c : list A) : sublist a b -> sublist b c -> sublist a c.
Proof.
  intros H1 H2. revert a H1. induction H2 as [c|x b c H IH|x b c H IH]; intros a H1.
  - inversion H1; subst. constructor.
  - apply sub_skip. auto.
  - inversion H1; subst; [apply sub_nil|apply sub_skip|apply sub_keep]; auto.
Qed.
Lemma sublist_in {A} (a b : list A) x : sublist a b -> In x a -> In x b.
Proof. induction 1; cbn; intuition. Qed.
Lemma drop_pair_sub ct l : forall l', drop_pair ct l = Some l' -> sublist l' l.
Proof.
  induction l as [|a l IH]; intros l' H; cbn [drop_pair] in H; [discriminate|].
  destruct (String.eqb (fst a) (tun_push ct)); [discriminate|].
  destruct (String.eqb (fst a) (tun_pop ct)); [injection H as <-; apply sub_skip; apply sublist_refl|].
  destruct (sets_one_of (tun_fields ct) a); [apply sub_skip; auto|].
  destruct (drop_pair ct l) as [r|]; [|discriminate]. injection H as <-. apply sub_keep. auto.
Qed.
Lemma drop_first_sub l : forall l', drop_first_pair l = Some l' -> sublist l' l.
Proof.
  induction l as [|a l IH]; intros l' H; cbn [drop_first_pair] in H; [discriminate|].
  destruct (push_of a) as [ct|].
  - destruct (drop_pair ct l) as [r|] eqn:E; [injection H as <-; apply sub_skip; eapply drop_pair_sub; eauto|].
    destruct (drop_first_pair l) as [r|]; [|discriminate]. injection H as <-. apply sub_keep. auto.
  - destruct (drop_first_pair l) as [r|]; [|discriminate]. injection H as <-. apply sub_keep. auto.
Qed.
Lemma drop_pairs_sub fuel : forall l l', drop_pairs fuel l = Ok l' -> sublist l' l.
Proof.
  induction fuel as [|fuel IH]; intros l l' H; cbn [drop_pairs] in H; [discriminate|].
  destruct (drop_first_pair l) as [r|] eqn:E; [|injection H as <-; apply sublist_refl].
  eapply sublist_trans; [apply IH, H|]. now apply drop_first_sub.
Qed.
Lemma drop_popped_sub l : sublist (fst (drop_popped l)) l.
Proof.
  induction l as [|a l IH]; cbn [drop_popped]; [constructor|]. destruct (drop_popped l) as [t popped]. cbn [fst] in *.
  destruct (pop_of a); [now apply sub_keep|]. destruct (sets_one_of popped a); [now apply sub_skip|now apply sub_keep].
Qed.
Lemma drop_overwritten_sub l : forall l', drop_overwritten l = Ok l' -> sublist l' l.
Proof.
  induction l as [|a l IH]; intros l' H; cbn [drop_overwritten] in H; [injection H as <-; constructor|].
  apply rbind_ok in H as (g & _ & H). apply rbind_ok in H as (t & Ht & H). injection H as <-.
  destruct g; [apply sub_skip|apply sub_keep]; auto.
Qed.
Lemma remove_redundant_sub l l' : remove_redundant_list l = Ok l' -> sublist l' l.
Proof.
  unfold remove_redundant_list. intros H. apply rbind_ok in H as (l1 & H1 & H).
  eapply sublist_trans; [eapply drop_overwritten_sub, H|]. eapply sublist_trans; [apply drop_popped_sub|]. eapply drop_pairs_sub, H1.
Qed.
(** No exception and no endless loop on lists of known actions. *)
Lemma overwritten_total a f l : known a = true -> Forall (fun x => known x = true) l -> exists b, overwritten a f l = Ok b.
Proof.
  intros Ha. induction 1 as [|x l Hx Hl IH]; cbn [overwritten]; eauto.
  destruct (match set_field_of x with Some g => String.eqb g f | None => false end); eauto.
  destruct (depends_total a x Ha Hx) as (d & ->). cbn [rbind]. destruct d; eauto.
Qed.
Lemma drop_overwritten_total l : Forall (fun x => known x = true) l -> exists l', drop_overwritten l = Ok l'.
Proof.
  induction 1 as [|a l Ha Hl IH]; cbn [drop_overwritten]; eauto. destruct IH as (l' & ->).
  assert (exists g, match set_field_of a with Some f => overwritten a f l | None => Ok false end = Ok g) as (g & ->).
  { destruct (set_field_of a); eauto. now apply overwritten_total. }
  cbn. eauto.
Qed.
Lemma remove_redundant_total l : Forall (fun x => known x = true) l -> exists l', remove_redundant_list l = Ok l'.
Proof.
  intros H. unfold remove_redundant_list. destruct (drop_pairs_total (S (length l)) l) as (l1 & E & _); [lia|].
  rewrite E. cbn [rbind]. apply drop_overwritten_total. apply Forall_forall. intros x Hx.
  rewrite Forall_forall in H. apply H. eapply sublist_in; [|exact Hx].
  eapply sublist_trans; [apply drop_popped_sub|eapply drop_pairs_sub, E].
Qed.

(** ** Effect *)
(** Lists that never push MPLS, never touch PBB, and emit only at the end. *)
Definition plain_act (a : action) : bool :=
  negb (str_in (fst a) ["PUSH_MPLS"; "PUSH_PBB"; "POP_PBB"]).
Fixpoint outs_last (l : list action) : bool :=
  match l with [] => true | a :: t => if emits (fst a) then forallb (fun b => emits (fst b)) t else outs_last t end.
Definition plain_list (l : list action) : Prop := forallb plain_act l = true /\ outs_last l = true.

Lemma outs_last_tail a l : outs_last (a :: l) = true -> outs_last l = true.
Proof.
  cbn [outs_last]. destruct (emits (fst a)); auto. clear. induction l as [|b l IH]; cbn; auto.
  destruct (emits (fst b)); cbn; auto. discriminate.
Qed.
Lemma outs_all l : forallb (fun b => emits (fst b)) l = true -> outs_last l = true.
Proof. destruct l as [|b l]; cbn; auto. destruct (emits (fst b)); cbn; [auto|discriminate]. Qed.
Lemma sublist_outs_all l r : sublist l r -> forallb (fun b : action => emits (fst b)) r = true -> forallb (fun b => emits (fst b)) l = true.
Proof. intros H. rewrite !forallb_forall. intros K x Hx. apply K. eapply sublist_in; eauto. Qed.
Lemma sublist_outs_last l r : sublist l r -> outs_last r = true -> outs_last l = true.
Proof.
  induction 1 as [l|x l r H IH|x l r H IH]; intros K; auto.
  - apply IH. eapply outs_last_tail; eauto.
  - cbn [outs_last] in *. destruct (emits (fst x)); auto. eapply sublist_outs_all; eauto.
Qed.
Lemma sublist_plain l r : sublist l r -> plain_list r -> plain_list l.
Proof.
  intros H [H1 H2]. split; [|eapply sublist_outs_last; eauto].
  rewrite forallb_forall in *. intros x Hx. apply H1. eapply sublist_in; eauto.
Qed.
Lemma plain_cons a l : plain_list (a :: l) -> plain_act a = true /\ plain_list l.
Proof.
  intros [H1 H2]. cbn [forallb] in H1. apply andb_true_iff in H1 as [Ha Hl]. repeat split; auto. eapply outs_last_tail; eauto.
Qed.
(** The action's kind from its name, the other way round. *)
Lemma kind_name n : match kind n with
  | KPushVlan => n = "PUSH_VLAN" | KPopVlan => n = "POP_VLAN" | KSet => n = "SET_FIELD" | KPushMpls => n = "PUSH_MPLS"
  | KPopMpls => n = "POP_MPLS" | KPushPbb => n = "PUSH_PBB" | KPopPbb => n = "POP_PBB" | _ => True end.
Proof.
  unfold kind. repeat (match goal with |- context [if ?c then _ else _] => destruct c eqn:? end); try exact Logic.I; now apply String.eqb_eq.
Qed.
Lemma plain_eff a : plain_act a = true -> match eff_of a with EPushMpls _ | EPushPbb _ | EPopPbb => False | _ => True end.
Proof.
  unfold plain_act, eff_of. intros H. pose proof (kind_name (fst a)) as K. destruct (kind (fst a)); try exact Logic.I;
    try (rewrite K in H; vm_compute in H; discriminate H). destruct (snd a); exact Logic.I.
Qed.
Lemma plain_no_pbb l : forallb plain_act l = true -> no_pbb_pair l.
Proof.
  rewrite forallb_forall. intros H a b Ha Hb. unfold pbb_pair.
  assert (X : forall a, In a l -> is_pbb a = false).
  { clear - H. intros a Ha. apply H, plain_eff in Ha. unfold is_pbb. destruct (eff_of a); auto; contradiction. }
  now rewrite (X a Ha), (X b Hb).
Qed.

Lemma set_field_eff a f : set_field_of a = Some f -> exists v, a = ("SET_FIELD", VSet f v) /\ eff_of a = EField (which f) v.
Proof.
  unfold set_field_of. destruct (String.eqb_spec (fst a) "SET_FIELD") as [E|]; [|discriminate]. destruct a as [n x]. cbn [fst snd] in *. subst.
  destruct x; try discriminate. intros [= <-]. eauto.
Qed.
Lemma push_of_plain a ct : plain_act a = true -> push_of a = Some ct -> ct = PV /\ fst a = "PUSH_VLAN".
Proof.
  unfold plain_act, push_of, tunnels. cbn [find_tun tun_push]. intros H.
  destruct (String.eqb_spec "PUSH_VLAN" (fst a)); [intros [= <-]; auto|].
  destruct (String.eqb_spec "PUSH_MPLS" (fst a)) as [X|]; [rewrite <- X in H; vm_compute in H; discriminate H|].
  destruct (String.eqb_spec "PUSH_PBB" (fst a)) as [X|]; [rewrite <- X in H; vm_compute in H; discriminate H|]. discriminate.
Qed.
Lemma sets_vlan_eff a : sets_one_of ["VLAN_VID"; "VLAN_PCP"] a = true ->
  exists v, eff_of a = EField FVid v \/ eff_of a = EField FPcp v.
Proof.
  unfold sets_one_of. destruct (set_field_of a) as [f|] eqn:E; [|discriminate]. apply set_field_eff in E as (v & -> & _).
  unfold str_in. cbn [existsb]. rewrite orb_false_r, orb_true_iff, !String.eqb_eq. exists v. destruct H as [-> | ->]; auto.
Qed.
Lemma sets_mpls_eff a : sets_one_of ["MPLS_LABEL"; "MPLS_TC"; "MPLS_BOS"] a = true ->
  exists v, eff_of a = EField FLabel v \/ eff_of a = EField FTc v \/ eff_of a = EField FBos v.
Proof.
  unfold sets_one_of. destruct (set_field_of a) as [f|] eqn:E; [|discriminate]. apply set_field_eff in E as (v & -> & _).
  unfold str_in. cbn [existsb]. rewrite orb_false_r, !orb_true_iff, !String.eqb_eq. exists v. destruct H as [-> | [-> | ->]]; auto.
Qed.
(** an effect on VLAN tags comes from one of these *)
Lemma vlan_eff_inv a : match eff_of a with
  | EField FVid _ | EField FPcp _ => sets_one_of ["VLAN_VID"; "VLAN_PCP"] a = true
  | EPushVlan _ => fst a = "PUSH_VLAN"
  | EPopVlan => fst a = "POP_VLAN"
  | EPopMpls _ => fst a = "POP_MPLS"
  | _ => True
  end.
Proof.
  unfold eff_of. pose proof (kind_name (fst a)) as K. destruct (kind (fst a)); auto. destruct a as [n x]. cbn [fst snd] in *. subst.
  destruct x; auto. unfold sets_one_of, set_field_of. cbn [fst snd]. rewrite String.eqb_refl. unfold str_in. cbn [existsb].
  unfold which.
  repeat (match goal with |- context [if String.eqb field ?c then _ else _] => destruct (String.eqb_spec field c); [subst; try exact Logic.I; reflexivity|] end). exact Logic.I.
Qed.

(** *** Phase 1: a tag pushed and popped again *)
Definition addtag (t : vlan) (p : pkt) : pkt := with_top (with_vlans (cons t)) p.
Lemma addtag_comm e t p :
  match e with EField (FVid | FPcp) _ | EPushVlan _ | EPopVlan | EPushMpls _ | EPushPbb _ | EPopPbb => False | _ => True end ->
  do_eff e (addtag t p) = addtag t (do_eff e p).
Proof.
  destruct p as [[ed es et ei ec vs ms] inn fl tt qu].
  destruct e as [m v|n| |n|n|n| | | |n| |n| |n| ]; intros H; try contradiction; try reflexivity.
  - destruct m; try contradiction; try reflexivity. destruct inn; reflexivity.
  - destruct ms; reflexivity.
  - destruct ms as [|m1 [|m2 ms]]; reflexivity.
Qed.
Lemma addtag_set e t p v : e = EField FVid v \/ e = EField FPcp v -> exists t', do_eff e (addtag t p) = addtag t' p.
Proof. intros [-> | ->]; eexists; reflexivity. Qed.
Lemma addtag_pop t p : do_eff EPopVlan (addtag t p) = p.
Proof. destruct p as [[ed es et ei ec vs ms] inn fl tt qu]. reflexivity. Qed.
Lemma push_addtag n p : exists t, do_eff (EPushVlan n) p = addtag t p.
Proof. destruct p as [[ed es et ei ec [|v vs] ms] inn fl tt qu]; eexists; reflexivity. Qed.

Section Eff.
  Context (pick : list (list action) -> nat).
  Notation emit := (emit pick).
  Notation run_out := (run_out pick).

  Lemma run_out_none l p : forallb (fun a : action => negb (emits (fst a))) l = true -> run_out l p = [].
  Proof.
    revert p. induction l as [|a l IH]; intros p H; cbn [SpecExec.run_out]; auto. cbn in H. apply andb_true_iff in H as [H1 H2].
    rewrite (emit_nil pick a p) by (now apply negb_true_iff). cbn. auto.
  Qed.
  Lemma emits_all_no_pop l : forallb (fun b : action => emits (fst b)) l = true -> forall ct l', In ct tunnels -> drop_pair ct l = Some l' -> False.
  Proof.
    induction l as [|a l IH]; intros H ct l' Hc E; cbn [drop_pair] in E; [discriminate|].
    cbn in H. apply andb_true_iff in H as [H1 H2].
    destruct (String.eqb (fst a) (tun_push ct)); [discriminate|].
    destruct (String.eqb_spec (fst a) (tun_pop ct)) as [X|X].
    - apply emits_names in H1. rewrite X in H1. destruct Hc as [<-|[<-|[<-|[]]]]; destruct H1; discriminate.
    - destruct (sets_one_of (tun_fields ct) a); [eauto|]. destruct (drop_pair ct l) eqn:E2; [|discriminate]. eauto.
  Qed.
  Lemma drop_pair_effect l : plain_list l -> forall l' t p, drop_pair PV l = Some l' ->
    run_pkt l (addtag t p) = run_pkt l' p /\ run_out l (addtag t p) = run_out l' p.
  Proof.
    induction l as [|a l IH]; intros Hp l' t p E; [discriminate|]. pose proof (plain_cons _ _ Hp) as [Ha Hl].
    assert (Em : emits (fst a) = false).
    { destruct (emits (fst a)) eqn:Em; auto. exfalso. destruct Hp as [_ Ho]. cbn [outs_last] in Ho. rewrite Em in Ho.
      apply (emits_all_no_pop (a :: l)) with (ct := PV) (l' := l'); auto; [|now left]. cbn. now rewrite Em. }
    cbn [drop_pair] in E. cbn [tun_push tun_pop tun_fields] in E.
    destruct (String.eqb_spec (fst a) "PUSH_VLAN") as [|N1]; [discriminate|].
    cbn [run_pkt SpecExec.run_out]. rewrite (emit_nil pick a _ Em). cbn [app].
    destruct (String.eqb_spec (fst a) "POP_VLAN") as [E1|N2].
    - injection E as <-. rewrite rewrite_eff. assert (Ee : eff_of a = EPopVlan) by (unfold eff_of; now rewrite E1).
      rewrite Ee, addtag_pop. auto.
    - destruct (sets_one_of ["VLAN_VID"; "VLAN_PCP"] a) eqn:Es.
      + destruct (sets_vlan_eff _ Es) as (v & Hv). rewrite rewrite_eff. destruct (addtag_set _ t p v Hv) as (t' & ->). apply IH; auto.
      + destruct (drop_pair PV l) as [r|] eqn:Er; [|discriminate]. injection E as <-. cbn [run_pkt SpecExec.run_out].
        rewrite (emit_nil pick a _ Em). cbn [app]. rewrite !rewrite_eff, addtag_comm; [apply IH; auto|].
        pose proof (vlan_eff_inv a). pose proof (plain_eff a Ha). destruct (eff_of a) as [[]| | | | | | | | | | | | | | ]; auto; congruence.
  Qed.
  Lemma drop_first_effect l : plain_list l -> forall l' p, drop_first_pair l = Some l' -> run_pkt l p = run_pkt l' p /\ run_out l p = run_out l' p.
  Proof.
    induction l as [|a l IH]; intros Hp l' p E; [discriminate|]. pose proof (plain_cons _ _ Hp) as [Ha Hl].
    cbn [drop_first_pair] in E.
    assert (G : option_map (cons a) (drop_first_pair l) = Some l' -> run_pkt (a :: l) p = run_pkt l' p /\ run_out (a :: l) p = run_out l' p).
    { intros E'. destruct (drop_first_pair l) as [r|]; [|discriminate]. injection E' as <-. cbn [run_pkt SpecExec.run_out].
      destruct (IH Hl r (rewrite_pkt a p) eq_refl) as [-> ->]. auto. }
    destruct (push_of a) as [ct|] eqn:Ec; [|auto].
    destruct (push_of_plain _ _ Ha Ec) as [-> Hn]. destruct (drop_pair PV l) as [r|] eqn:Er; [|auto]. injection E as <-.
    cbn [run_pkt SpecExec.run_out]. rewrite (emit_nil pick a) by (now rewrite Hn). cbn [app].
    rewrite rewrite_eff. assert (Ee : eff_of a = EPushVlan (num (snd a))) by (unfold eff_of; now rewrite Hn).
    rewrite Ee. destruct (push_addtag (num (snd a)) p) as (t & ->). now apply drop_pair_effect.
  Qed.
  Lemma drop_pairs_effect fuel : forall l l' p, plain_list l -> drop_pairs fuel l = Ok l' -> run_pkt l p = run_pkt l' p /\ run_out l p = run_out l' p.
  Proof.
    induction fuel as [|fuel IH]; intros l l' p Hp H; cbn [drop_pairs] in H; [discriminate|].
    destruct (drop_first_pair l) as [r|] eqn:E; [|injection H as <-; auto].
    destruct (drop_first_effect l Hp r p E) as [-> ->]. apply IH; auto. eapply sublist_plain; [apply drop_first_sub, E|auto].
  Qed.

  (** *** Phase 2: fields of a tag popped later *)
  Definition has (n : string) (l : list action) : bool := existsb (fun b => String.eqb (fst b) n) l.
  (** after phase 1 no PUSH_VLAN comes before a POP_VLAN *)
  Fixpoint no_push_pop (l : list action) : bool :=
    match l with
    | [] => true
    | a :: t => (if String.eqb (fst a) "PUSH_VLAN" then negb (has "POP_VLAN" t) else true) && no_push_pop t
    end.
  Lemma drop_pair_none l : drop_pair PV l = None -> has "POP_VLAN" l = true ->
    exists l1 a l2, l = l1 ++ a :: l2 /\ fst a = "PUSH_VLAN" /\ has "POP_VLAN" l2 = true.
  Proof.
    induction l as [|a l IH]; intros H E; [discriminate|]. unfold has in E. cbn [drop_pair tun_push tun_pop tun_fields existsb] in *. fold (has "POP_VLAN" l) in E.
    destruct (String.eqb_spec (fst a) "PUSH_VLAN") as [E1|N1].
    - exists [], a, l. split; auto. split; auto. now rewrite E1 in E.
    - destruct (String.eqb_spec (fst a) "POP_VLAN"); [discriminate|]. cbn [orb] in E.
      assert (Hn : drop_pair PV l = None) by (destruct (sets_one_of _ a); auto; destruct (drop_pair PV l); auto; discriminate).
      destruct (IH Hn E) as (l1 & b & l2 & -> & Hb & He). exists (a :: l1), b, l2. auto.
  Qed.
  Lemma no_pairs_left l : drop_first_pair l = None -> no_push_pop l = true.
  Proof.
    remember (length l) as n eqn:En. assert (Hn : (length l <= n)%nat) by lia. clear En. revert l Hn.
    induction n as [|n IH]; intros l Hn H; destruct l as [|a l]; auto; cbn [length] in Hn; [lia|].
    cbn [drop_first_pair] in H. cbn [no_push_pop].
    assert (Hl : drop_first_pair l = None).
    { destruct (match push_of a with Some ct => drop_pair ct l | None => None end); [discriminate|]. destruct (drop_first_pair l); auto; discriminate. }
    rewrite (IH l) by (auto; lia). rewrite andb_true_r.
    destruct (String.eqb_spec (fst a) "PUSH_VLAN") as [E|N]; auto.
    assert (Hp : push_of a = Some PV) by (unfold push_of; rewrite E; reflexivity). rewrite Hp in H.
    destruct (drop_pair PV l) eqn:Ed; [discriminate|]. apply negb_true_iff. match goal with |- ?x = false => destruct x eqn:Ee; auto end. exfalso.
    destruct (drop_pair_none _ Ed Ee) as (l1 & b & l2 & -> & Hb & He).
    assert (Hs : forall l1 l2, drop_first_pair (l1 ++ l2) = None -> drop_first_pair l2 = None).
    { clear. induction l1 as [|x l1 IH]; intros l2 H; auto. cbn [app drop_first_pair] in H. apply IH.
      destruct (match push_of x with Some ct => drop_pair ct (l1 ++ l2) | None => None end); [discriminate|].
      destruct (drop_first_pair (l1 ++ l2)); auto; discriminate. }
    apply Hs in Hl. assert (Hq : no_push_pop (b :: l2) = true).
    { apply IH; auto. rewrite app_length in Hn. cbn [length] in *. lia. }
    cbn [no_push_pop] in Hq. rewrite Hb, String.eqb_refl, He in Hq. discriminate.
  Qed.

  (** packets that differ only in the outer VLAN tag, or only in the outer MPLS header but for its TTL *)
  Definition upto_tag (p q : pkt) : Prop := exists x y r, p = with_top (with_vlans (fun _ => x :: r)) q /\ f_vlans (p_top q) = y :: r.
  Definition upto_shim (p q : pkt) : Prop :=
    exists x y r, p = with_top (with_mpls (fun _ => x :: r)) q /\ f_mpls (p_top q) = y :: r /\ m_ttl x = m_ttl y.
  Lemma upto_tag_set p e v : e = EField FVid v \/ e = EField FPcp v -> do_eff e p = p \/ upto_tag (do_eff e p) p.
  Proof.
    destruct p as [[ed es et ei ec [|t vs] ms] inn fl tt qu]; intros [-> | ->]; auto; right;
      eexists _, t, vs; (split; [reflexivity|reflexivity]).
  Qed.
  Lemma upto_shim_set p e v : e = EField FLabel v \/ e = EField FTc v \/ e = EField FBos v -> do_eff e p = p \/ upto_shim (do_eff e p) p.
  Proof.
    destruct p as [[ed es et ei ec vs [|t ms]] inn fl tt qu]; intros [-> | [-> | ->]]; auto; right;
      eexists _, t, ms; (split; [reflexivity|split; reflexivity]).
  Qed.
  Lemma upto_tag_step e p q : upto_tag p q ->
    match e with EPushVlan _ | EPopVlan | EPushMpls _ | EPushPbb _ | EPopPbb => False | _ => True end ->
    upto_tag (do_eff e p) (do_eff e q).
  Proof.
    intros (x & y & r & -> & Hq). destruct q as [[ed es et ei ec vs ms] inn fl tt qu]. cbn [p_top f_vlans] in Hq. subst vs.
    destruct e as [m v|n| |n|n|n| | | |n| |n| |n| ]; intros H; try contradiction; try (eexists x, y, r; split; reflexivity).
    - destruct m; try (eexists x, y, r; split; reflexivity).
      + eexists (Vlan (v_tpid x) v (v_pcp x)), (Vlan (v_tpid y) v (v_pcp y)), r; split; reflexivity.
      + eexists (Vlan (v_tpid x) (v_vid x) v), (Vlan (v_tpid y) (v_vid y) v), r; split; reflexivity.
      + destruct inn; eexists x, y, r; split; reflexivity.
    - destruct ms; eexists x, y, r; split; reflexivity.
    - destruct ms as [|m1 [|m2 ms]]; eexists x, y, r; split; reflexivity.
  Qed.
  Lemma upto_tag_pop p q : upto_tag p q -> do_eff EPopVlan p = do_eff EPopVlan q.
  Proof.
    intros (x & y & r & -> & Hq). destruct q as [[ed es et ei ec vs ms] inn fl tt qu]. cbn [p_top f_vlans] in Hq. subst vs. reflexivity.
  Qed.
  Lemma upto_shim_step e p q : upto_shim p q ->
    match e with EPopMpls _ | EPushMpls _ | EPushPbb _ | EPopPbb => False | _ => True end ->
    upto_shim (do_eff e p) (do_eff e q).
  Proof.
    intros (x & y & r & -> & Hq & Ht). destruct q as [[ed es et ei ec vs ms] inn fl tt qu]. cbn [p_top f_mpls] in Hq. subst ms.
    destruct e as [m v|n| |n|n|n| | | |n| |n| |n| ]; intros H; try contradiction; try (eexists x, y, r; split; [reflexivity|split; [reflexivity|exact Ht]]).
    - destruct m; try (eexists x, y, r; split; [reflexivity|split; [reflexivity|exact Ht]]).
      + eexists (Mpls v (m_tc x) (m_bos x) (m_ttl x)), (Mpls v (m_tc y) (m_bos y) (m_ttl y)), r; (split; [reflexivity|split; [reflexivity|exact Ht]]).
      + eexists (Mpls (m_label x) v (m_bos x) (m_ttl x)), (Mpls (m_label y) v (m_bos y) (m_ttl y)), r; (split; [reflexivity|split; [reflexivity|exact Ht]]).
      + eexists (Mpls (m_label x) (m_tc x) v (m_ttl x)), (Mpls (m_label y) (m_tc y) v (m_ttl y)), r; (split; [reflexivity|split; [reflexivity|exact Ht]]).
      + destruct inn; eexists x, y, r; (split; [reflexivity|split; [reflexivity|exact Ht]]).
    - destruct r as [|m2 ms].
      + eexists (set_ttl_of tt x), (set_ttl_of tt y), []; (split; [reflexivity|split; reflexivity]).
      + eexists (set_ttl_of (m_ttl m2) x), (set_ttl_of (m_ttl m2) y), (m2 :: ms); (split; [reflexivity|split; reflexivity]).
    - destruct r as [|m2 ms].
      + cbn [do_eff]. unfold copy_ttl_in, with_top, with_mpls, with_ttl. cbn [p_top f_mpls p_inner p_flat p_ttl p_queue f_dst f_src f_type f_isid f_ipcp f_vlans]. rewrite <- Ht.
        eexists x, y, []; (split; [reflexivity|split; [reflexivity|exact Ht]]).
      + cbn [do_eff]. unfold copy_ttl_in, with_top, with_mpls, with_ttl. cbn [p_top f_mpls p_inner p_flat p_ttl p_queue f_dst f_src f_type f_isid f_ipcp f_vlans]. rewrite <- Ht.
        eexists x, y, _; (split; [reflexivity|split; [reflexivity|exact Ht]]).
    - eexists (set_ttl_of n x), (set_ttl_of n y), r; (split; [reflexivity|split; reflexivity]).
    - eexists (set_ttl_of (dec (m_ttl x)) x), (set_ttl_of (dec (m_ttl y)) y), r; (split; [reflexivity|split; [reflexivity|cbn; now rewrite Ht]]).
  Qed.
  Lemma upto_shim_pop n p q : upto_shim p q -> do_eff (EPopMpls n) p = do_eff (EPopMpls n) q.
  Proof.
    intros (x & y & r & -> & Hq & Ht). destruct q as [[ed es et ei ec vs ms] inn fl tt qu]. cbn [p_top f_mpls] in Hq. subst ms. reflexivity.
  Qed.
  Lemma emits_has n l : n <> "OUTPUT" -> n <> "GROUP" -> forallb (fun b : action => emits (fst b)) l = true -> has n l = false.
  Proof.
    intros N1 N2. unfold has. induction l as [|a l IH]; cbn; auto. rewrite andb_true_iff. intros [H1 H2]. rewrite IH by auto.
    apply emits_names in H1. destruct (String.eqb_spec (fst a) n); auto. subst n. destruct H1; contradiction.
  Qed.
  Lemma head_emits n a l : n <> "OUTPUT" -> n <> "GROUP" -> outs_last (a :: l) = true -> has n (a :: l) = true -> emits (fst a) = false.
  Proof.
    intros N1 N2 Ho Hh. cbn [outs_last] in Ho. destruct (emits (fst a)) eqn:E; auto. exfalso.
    rewrite (emits_has n (a :: l)) in Hh; auto; [discriminate|]. cbn. now rewrite E.
  Qed.
  Lemma run_upto_tag l : plain_list l -> no_push_pop l = true -> has "POP_VLAN" l = true ->
    forall p q, upto_tag p q -> run_pkt l p = run_pkt l q /\ run_out l p = run_out l q.
  Proof.
    induction l as [|a l IH]; intros Hp Hn Hh p q U; [discriminate|]. pose proof (plain_cons _ _ Hp) as [Ha Hl].
    pose proof (head_emits "POP_VLAN" a l ltac:(discriminate) ltac:(discriminate) (proj2 Hp) Hh) as Em.
    cbn [no_push_pop] in Hn. apply andb_true_iff in Hn as [Hn1 Hn2]. cbn [run_pkt SpecExec.run_out].
    rewrite !(emit_nil pick a _ Em). cbn [app]. rewrite !rewrite_eff. unfold has in Hh. cbn [existsb] in Hh. fold (has "POP_VLAN" l) in Hh.
    destruct (String.eqb_spec (fst a) "POP_VLAN") as [E1|N1].
    - assert (Ee : eff_of a = EPopVlan) by (unfold eff_of; now rewrite E1). rewrite Ee, (upto_tag_pop _ _ U). auto.
    - cbn [orb] in Hh. apply IH; auto. apply upto_tag_step; auto.
      pose proof (vlan_eff_inv a) as V. pose proof (plain_eff a Ha) as P. destruct (eff_of a) as [m v|n| |n|n|n| | | |n| |n| |n| ]; auto.
      rewrite V, String.eqb_refl, Hh in Hn1. discriminate.
  Qed.
  Lemma run_upto_shim l : plain_list l -> has "POP_MPLS" l = true ->
    forall p q, upto_shim p q -> run_pkt l p = run_pkt l q /\ run_out l p = run_out l q.
  Proof.
    induction l as [|a l IH]; intros Hp Hh p q U; [discriminate|]. pose proof (plain_cons _ _ Hp) as [Ha Hl].
    pose proof (head_emits "POP_MPLS" a l ltac:(discriminate) ltac:(discriminate) (proj2 Hp) Hh) as Em.
    cbn [run_pkt SpecExec.run_out].
    rewrite !(emit_nil pick a _ Em). cbn [app]. rewrite !rewrite_eff. unfold has in Hh. cbn [existsb] in Hh.
    destruct (String.eqb_spec (fst a) "POP_MPLS") as [E1|N1].
    - assert (Ee : eff_of a = EPopMpls (num (snd a))) by (unfold eff_of; now rewrite E1). rewrite Ee, (upto_shim_pop _ _ _ U). auto.
    - cbn [orb] in Hh. apply IH; auto. apply upto_shim_step; auto.
      pose proof (vlan_eff_inv a) as V. pose proof (plain_eff a Ha) as P. destruct (eff_of a) as [m v|n| |n|n|n| | | |n| |n| |n| ]; auto.
  Qed.
  Lemma pop_of_plain a tn : plain_act a = true -> pop_of a = Some tn -> (tn = PV /\ fst a = "POP_VLAN") \/ (tn = PM /\ fst a = "POP_MPLS").
  Proof.
    unfold plain_act, pop_of, tunnels. cbn [find_tun tun_pop]. intros H.
    destruct (String.eqb_spec "POP_VLAN" (fst a)); [intros [= <-]; auto|].
    destruct (String.eqb_spec "POP_MPLS" (fst a)); [intros [= <-]; auto|].
    destruct (String.eqb_spec "POP_PBB" (fst a)) as [X|]; [rewrite <- X in H; vm_compute in H; discriminate H|]. discriminate.
  Qed.
  Lemma popped_fields l : plain_list l -> forall f, In f (snd (drop_popped l)) ->
    (In f ["VLAN_VID"; "VLAN_PCP"] /\ has "POP_VLAN" l = true) \/ (In f ["MPLS_LABEL"; "MPLS_TC"; "MPLS_BOS"] /\ has "POP_MPLS" l = true).
  Proof.
    induction l as [|a l IH]; intros Hp f Hf; cbn [drop_popped] in Hf; [destruct Hf|]. pose proof (plain_cons _ _ Hp) as [Ha Hl].
    specialize (IH Hl f). destruct (drop_popped l) as [t popped]. cbn [snd] in IH.
    assert (IH' : In f popped -> (In f ["VLAN_VID"; "VLAN_PCP"] /\ has "POP_VLAN" (a :: l) = true) \/ (In f ["MPLS_LABEL"; "MPLS_TC"; "MPLS_BOS"] /\ has "POP_MPLS" (a :: l) = true)).
    { intros X. unfold has in *. cbn [existsb]. destruct (IH X) as [[A B]|[A B]]; [left|right]; rewrite B, orb_true_r; auto. }
    destruct (pop_of a) as [tn|] eqn:Ep.
    - cbn [snd] in Hf. apply in_app_or in Hf as [Hf|Hf]; auto.
      destruct (pop_of_plain _ _ Ha Ep) as [[-> Hn]|[-> Hn]]; [left|right]; cbn [tun_fields] in Hf; (split; [exact Hf|]); unfold has; cbn [existsb]; now rewrite Hn.
    - destruct (sets_one_of popped a); auto.
  Qed.
  Lemma str_in_In f l : str_in f l = true <-> In f l.
  Proof. unfold str_in. rewrite existsb_exists. split; [intros (x & H & E); apply String.eqb_eq in E; now subst|intros H; exists f; split; auto; apply String.eqb_refl]. Qed.
  Lemma drop_popped_effect l : plain_list l -> no_push_pop l = true -> forall p,
    run_pkt l p = run_pkt (fst (drop_popped l)) p /\ run_out l p = run_out (fst (drop_popped l)) p.
  Proof.
    induction l as [|a l IH]; intros Hp Hn p; auto. pose proof (plain_cons _ _ Hp) as [Ha Hl].
    pose proof (popped_fields l Hl) as PF. cbn [no_push_pop] in Hn. apply andb_true_iff in Hn as [_ Hn].
    specialize (IH Hl Hn). cbn [drop_popped]. destruct (drop_popped l) as [t popped]. cbn [fst snd] in *.
    assert (G : run_pkt (a :: l) p = run_pkt (a :: t) p /\ run_out (a :: l) p = run_out (a :: t) p).
    { cbn [run_pkt SpecExec.run_out]. destruct (IH (rewrite_pkt a p)) as [-> ->]. auto. }
    destruct (pop_of a); [exact G|]. destruct (sets_one_of popped a) eqn:Es; [|exact G]. cbn [fst].
    unfold sets_one_of in Es. destruct (set_field_of a) as [f|] eqn:Ef; [|discriminate]. apply str_in_In in Es.
    assert (Em : emits (fst a) = false).
    { destruct (set_field_eff _ _ Ef) as (v & -> & _). reflexivity. }
    destruct (IH p) as [<- <-]. cbn [run_pkt SpecExec.run_out]. rewrite (emit_nil pick a _ Em). cbn [app]. rewrite rewrite_eff.
    destruct (set_field_eff _ _ Ef) as (v & _ & Ee).
    destruct (PF f Es) as [[Hf Hh]|[Hf Hh]].
    - assert (E2 : eff_of a = EField FVid v \/ eff_of a = EField FPcp v).
      { rewrite Ee. destruct Hf as [<-|[<-|[]]]; auto. }
      destruct (upto_tag_set p _ v E2) as [->|U]; auto. now apply run_upto_tag.
    - assert (E2 : eff_of a = EField FLabel v \/ eff_of a = EField FTc v \/ eff_of a = EField FBos v).
      { rewrite Ee. destruct Hf as [<-|[<-|[<-|[]]]]; auto. }
      destruct (upto_shim_set p _ v E2) as [->|U]; auto. now apply run_upto_shim.
  Qed.

  (** *** Phase 3: fields set twice *)
  Lemma set_twice m v w p : same_pkt (do_eff (EField m w) (do_eff (EField m v) p)) (do_eff (EField m w) p).
  Proof.
    destruct p as [[ed es et ei ec vs ms] inn fl tt qu]. destruct m; try (repeat split; fail).
    - destruct vs; repeat split.
    - destruct vs; repeat split.
    - destruct ms; repeat split.
    - destruct ms; repeat split.
    - destruct ms; repeat split.
    - destruct inn; repeat split.
    - repeat split. cbn. intros h. destruct (String.eqb h f); auto.
  Qed.
  Lemma overwritten_effect a f l : set_field_of a = Some f -> no_pbb_pair (a :: l) -> overwritten a f l = Ok true -> same_effect pick (a :: l) l.
  Proof.
    intros Ea. destruct (set_field_eff _ _ Ea) as (v & Hav & Ee). induction l as [|b l IH]; intros Hn H; cbn [overwritten] in H; [discriminate|].
    destruct (match set_field_of b with Some g => String.eqb g f | None => false end) eqn:Eb.
    - destruct (set_field_of b) as [g|] eqn:Eg; [|discriminate]. apply String.eqb_eq in Eb. subst g.
      destruct (set_field_eff _ _ Eg) as (w & Hbw & Ee2). apply (same_effect_app pick [a; b] [b] l l); [|apply same_effect_refl].
      intros p. subst a b. cbn [run_pkt SpecExec.run_out]. rewrite !app_nil_r, !emit_nil by reflexivity. split; [|apply same_outs_refl].
      rewrite !rewrite_eff, Ee, Ee2. apply set_twice.
    - apply rbind_ok in H as (d & Hd & H). destruct d; [discriminate|].
      apply same_effect_trans with (b :: a :: l).
      + apply (same_effect_app pick [a; b] [b; a] l l); [|apply same_effect_refl]. apply swap_effect; auto. apply Hn; cbn; auto.
      + apply (same_effect_app pick [b] [b] (a :: l) l); [apply same_effect_refl|]. apply IH; auto.
        intros x y Hx Hy. apply Hn; cbn in *; intuition.
  Qed.
  Lemma drop_overwritten_effect l : no_pbb_pair l -> forall l', drop_overwritten l = Ok l' -> same_effect pick l l'.
  Proof.
    induction l as [|a l IH]; intros Hn l' H; cbn [drop_overwritten] in H.
    - injection H as <-. apply same_effect_refl.
    - apply rbind_ok in H as (g & Hg & H). apply rbind_ok in H as (t & Ht & H). injection H as <-.
      assert (Hn' : no_pbb_pair l) by (intros x y Hx Hy; apply Hn; now right). specialize (IH Hn' _ Ht). destruct g.
      + destruct (set_field_of a) as [f|] eqn:Ef; [|discriminate]. eapply same_effect_trans; [|exact IH]. eapply overwritten_effect; eauto.
      + apply (same_effect_app pick [a] [a] l t); [apply same_effect_refl|exact IH].
  Qed.

  Lemma remove_redundant_effect l l' : plain_list l -> remove_redundant_list l = Ok l' -> same_effect pick l l'.
  Proof.
    intros Hp H. unfold remove_redundant_list in H. apply rbind_ok in H as (l1 & H1 & H).
    assert (Hp1 : plain_list l1) by (eapply sublist_plain; [eapply drop_pairs_sub; eauto|auto]).
    apply same_effect_trans with l1.
    { intros p. destruct (drop_pairs_effect _ _ _ p Hp H1) as [-> ->]. split; [apply same_pkt_refl|apply same_outs_refl]. }
    apply same_effect_trans with (fst (drop_popped l1)).
    { intros p. destruct (drop_popped_effect l1 Hp1) with (p := p) as [-> ->]; [|split; [apply same_pkt_refl|apply same_outs_refl]].
      apply no_pairs_left. destruct (drop_pairs_total (S (length l)) l) as (l2 & E2 & E3); [lia|]. rewrite H1 in E2. injection E2 as <-. exact E3. }
    apply drop_overwritten_effect; auto. apply plain_no_pbb. eapply sublist_plain; [apply drop_popped_sub|auto].
  Qed.
End Eff.
