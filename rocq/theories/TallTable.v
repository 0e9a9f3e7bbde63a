(** Proofs for C83: the conversion of rules that push and pop tags to a single table. *)
From Coq Require Import Lia ZifyBool ZifyNat ZifyN Permutation Sorted.
From Verif Require Import ActionProofs InstProofs ActionSetProofs MatchWcProofs Match Merge SingleTable SpecTallTable MatchProofs MergeProofs SingleTableProofs TagProofs TallProofs PropTags PropTall.
From Verif Require NormaliseProofs.
Local Open Scope string_scope.
Local Open Scope list_scope.
Local Open Scope Z_scope.
Local Opaque NB WC_FULLWC layout oxm_fields registry_init.

(** ** A rule without tag operations does to a tall packet what it does to a header *)
Lemma plain_tag a : plain_act a -> tag_push a = None /\ tag_pop a = None.
Proof.
  intros [H _]. unfold tag_push, tag_pop. set (s := fst a) in *. cbn in H. cbn [find tunnels tun_push tun_pop].
  repeat match goal with |- context [String.eqb ?c s] => destruct (String.eqb_spec c s); [exfalso; apply H; tauto|] end. auto.
Qed.
Lemma plain_view_act a T i : plain_act a -> tview (tall_act T a) i = act_header a (tview T) i.
Proof.
  intros H. destruct (plain_tag a H) as [P Q]. destruct H as [_ H]. destruct a as [n v]. unfold tall_act. rewrite P, Q. destruct (String.eqb_spec n "SET_FIELD") as [->|N].
  - destruct (H eq_refl) as (f & x & E & _). cbn [snd] in E. subst v. apply tview_set.
  - assert (E : forall A (x y : A) g, (match (n, v) with ("SET_FIELD", VSet f u) => g f u | _ => y end) = y).
    { intros A x y g. repeat match goal with |- context [match ?x with _ => _ end] => is_var x; destruct x; try reflexivity end. now destruct N. }
    rewrite (E _ T T (fun f u => tall_set f (if String.eqb f "VLAN_VID" then Z.lor (2 ^ 12) u else u) T)). unfold act_header.
    now rewrite (E _ (tview T) (tview T) (fun f u => write_field f (if String.eqb f "VLAN_VID" then Z.lor (2 ^ 12) u else u) None (tview T))).
Qed.
Lemma act_header_ext a p q i : (forall j, p j = q j) -> act_header a p i = act_header a q i.
Proof.
  intros H. unfold act_header. repeat match goal with |- context [match ?x with _ => _ end] => is_var x; destruct x; try apply H end.
  unfold write_field. now rewrite H.
Qed.
Lemma acts_header_ext l : forall p q, (forall j, p j = q j) -> forall i, acts_header l p i = acts_header l q i.
Proof. induction l as [|a l IH]; intros p q H i; [apply H|]. apply IH. intros j. now apply act_header_ext. Qed.
Lemma plain_view_acts l : forall T i, plain_acts l -> tview (fold_left tall_act l T) i = acts_header l (tview T) i.
Proof.
  induction l as [|a l IH]; intros T i H; [reflexivity|]. inversion H as [|? ? Ha Hl]; subst. cbn [fold_left]. rewrite IH by auto.
  change (acts_header (a :: l) (tview T) i) with (acts_header l (act_header a (tview T)) i). apply acts_header_ext. intros j. now apply plain_view_act.
Qed.
Lemma plain_view c T i : plain_inst (inst c) -> tview (after_rule c T) i = inst_header (inst c) (tview T) i.
Proof.
  intros H. unfold after_rule, tall_inst. rewrite tview_meta. unfold inst_header. rewrite !meta_rw. unfold apply_rw. destruct (rmeta _ i); [reflexivity|]. now apply plain_view_acts.
Qed.
Lemma plain_no_meta c : plain_inst (inst c) -> Forall no_meta (orig_order (apply_actions (inst c))).
Proof. apply Forall_impl. intros a [_ H] v ->. destruct (H eq_refl) as (f & x & [= <- _] & N). now apply N. Qed.

(** ** Merging *)
Record tmerged_core (a b c : core) : Prop := mkTMC {
  tmc_match : forall T, core_hits c T <-> hits_both_tall a b T;
  tmc_inst : seq_inst (inst a) (inst b) (inst c);
  tmc_after : Forall no_meta (orig_order (apply_actions (inst b))) -> forall T, same_tall (after_rule c T) (after_rule b (after_rule a T)) }.
(** rules that can be merged with one of the next table *)
Definition tame_a (r : registry) (c : core) : Prop := outer_rule r c /\ tame_rule c.
Definition plain_a (o : bool) (c : core) : Prop := plain_inst (inst c) /\ (o = true -> no_inner (rmatch c)).
Definition base_ok (r : registry) (c : core) : Prop := match_ok r (rmatch c) /\ inst_wf (inst c).
Lemma base_mono r r' c : rle r r' -> base_ok r c -> base_ok r' c.
Proof. intros L [H1 H2]. split; [eapply match_ok_mono; eauto|auto]. Qed.
Lemma outer_mono r r' c : rle r r' -> outer_rule r c -> outer_rule r' c.
Proof. intros L (H1 & H2). split; [eapply match_ok_mono; eauto|auto]. Qed.
(** what is kept of a merge *)
Definition tmerge_res (r' : registry) (o : bool) (a b : core) (res : result core) : Prop :=
  (res = Err MergeExceptionNoOverlap /\ ~ exists T, hits_both_tall a b T) \/
  (exists e, res = Err e /\ is_merge_exn e = false) \/
  (exists c, res = Ok c /\ tmerged_core a b c /\ base_ok r' c /\ (plain_a o a -> plain_a o b -> plain_a o c)).
Lemma both_hits a b T : plain_inst (inst a) -> both a b (tview T) <-> hits_both_tall a b T.
Proof.
  intros P. assert (E := fun i => plain_view a T i P). unfold both, hits_both_tall, core_hits. split; intros [H1 H2]; (split; [exact H1|]).
  - apply (maccepts_ext _ (inst_header (inst a) (tview T))); [|exact H2]. intros i. now rewrite E.
  - apply (maccepts_ext _ (tview (after_rule a T))); [|exact H2]. exact E.
Qed.
Lemma finish_seq a b m i : inst_wf (inst a) -> inst_wf (inst b) -> inst_merge (inst a) (inst b) = Ok i -> (forall T, maccepts m (tview T) <-> hits_both_tall a b T) ->
  forall c, finish_merge a b m false = Ok c -> tmerged_core a b c /\ inst_wf (inst c).
Proof.
  intros Wa Wb Ei HT c Hc. unfold finish_merge in Hc. rewrite Ei in Hc. cbn [rbind andb] in Hc. injection Hc as <-.
  destruct (merge_inst (inst a) (inst b) i Wa Wb Ei) as (W & Sq & _). split; [|exact W]. constructor; cbn [rmatch inst].
  - exact HT.
  - exact Sq.
  - intros Nb T. apply inst_seq; [apply (sq_apply _ _ _ Sq)|exact Nb].
Qed.
Lemma tmerge_plain r a b o r' res : reg_ok r -> base_ok r a -> base_ok r b -> plain_a o a -> (o = true -> no_inner (rmatch b)) -> core_merge a b o r = (r', res) ->
  reg_ok r' /\ rle r r' /\ tmerge_res r' o a b res.
Proof.
  intros Hr (Ma & Wa) (Mb & Wb) (Pa & Da) Db H.
  destruct (core_merge_plain r a b o Hr Ma Mb (proj1 Wa) Pa) as (r1 & R1 & L1 & [[N E]|(m & p0 & Hp0 & Hm & Hacc & Hkeys & E)]); rewrite E in H; injection H as <- <-; (split; [exact R1|]; split; [exact L1|]).
  - left. split; [reflexivity|]. intros (T & HT). apply N. exists (tview T). now apply both_hits.
  - right. assert (D : o = true -> no_inner m).
    { intros Ho. unfold no_inner. destruct (existsb ends_in_digit (mkeys m)) eqn:Ed; [|reflexivity]. exfalso.
      apply existsb_exists in Ed as (n & Hn & Ed). apply mhas_keys in Hn. destruct (Hkeys n Hn) as (k & s & Es & En & [Hc|[_ Hc]]);
        apply (cbit_mhas _ _ _ Es) in Hc; rewrite En in Hc; apply mhas_keys in Hc.
      - specialize (Da Ho). unfold no_inner in Da. assert (existsb ends_in_digit (mkeys (rmatch a)) = true) by (apply existsb_exists; eauto). congruence.
      - specialize (Db Ho). unfold no_inner in Db. assert (existsb ends_in_digit (mkeys (rmatch b)) = true) by (apply existsb_exists; eauto). congruence. }
    destruct (inst_merge (inst a) (inst b)) as [i|e] eqn:Ei.
    + right. assert (Ef : finish_merge a b m o = finish_merge a b m false).
      { unfold finish_merge. rewrite Ei. cbn [rbind andb]. destruct o; [|reflexivity]. unfold no_inner in D. now rewrite (D eq_refl). }
      rewrite Ef. destruct (finish_merge a b m false) as [c|e] eqn:Ec; [|unfold finish_merge in Ec; rewrite Ei in Ec; discriminate Ec].
      assert (HT : forall T, maccepts m (tview T) <-> hits_both_tall a b T) by (intros T; rewrite Hacc; now apply both_hits).
      destruct (finish_seq a b m i Wa Wb Ei HT c Ec) as [Q W]. exists c. split; [reflexivity|]. split; [exact Q|].
      assert (Em : rmatch c = m) by (unfold finish_merge in Ec; rewrite Ei in Ec; cbn [rbind andb] in Ec; injection Ec as <-; reflexivity).
      split; [split; [now rewrite Em|exact W]|]. intros _ (Pb & _). split; [eapply seq_plain; [apply (tmc_inst _ _ _ Q)|exact Pa|exact Pb]|now rewrite Em].
    + left. exists e. split; [unfold finish_merge; now rewrite Ei|]. eapply inst_merge_exn; eauto.
Qed.
Lemma tmerge_tame r a b r' res : reg_ok r -> tame_a r a -> outer_rule r b -> core_merge a b false r = (r', res) ->
  reg_ok r' /\ rle r r' /\ 
  ((res = Err MergeExceptionNoOverlap /\ ~ exists T, hits_both_tall a b T) \/
  (exists e, res = Err e /\ is_merge_exn e = false) \/
  (exists c, res = Ok c /\ tmerged_core a b c /\ base_ok r' c)).
Proof.
  intros Hr ((Ma & Wa & Ka & Na) & Ta & Sa) (Mb & Wb & Kb & Nb) H. assert (Q := fun T => tboth_hits r a b T Wa Mb).
  assert (Hm : Forall no_meta (al_iter (apply_actions (inst a)))) by (apply (no_meta_list a); [exact Sa|]; intros x Hx; now apply iter_in).
  destruct (core_merge_tall r a b false Hr Ma Mb (conj Ka Na) (conj Kb Nb) Ta Hm) as (r1 & R1 & L1 & [[N E]|[(D & (T0 & HT) & E)|(m & T0 & HT & Mm & Am & E)]]); rewrite E in H; injection H as <- <-; (split; [exact R1|]; split; [exact L1|]).
  - left. split; [reflexivity|]. intros (T & HT). apply N. exists T. now apply Q.
  - right. left. eexists. split; [reflexivity|]. reflexivity.
  - right. destruct (inst_merge (inst a) (inst b)) as [i|e] eqn:Ei.
    + right. destruct (finish_merge a b m false) as [c|e] eqn:Ec; [|unfold finish_merge in Ec; rewrite Ei in Ec; discriminate Ec].
      assert (HT' : forall T, maccepts m (tview T) <-> hits_both_tall a b T) by (intros T; rewrite <- Q; apply Am).
      destruct (finish_seq a b m i Wa Wb Ei HT' c Ec) as [Q' W]. exists c. split; [reflexivity|]. split; [exact Q'|].
      assert (Em : rmatch c = m) by (unfold finish_merge in Ec; rewrite Ei in Ec; cbn [rbind andb] in Ec; injection Ec as <-; reflexivity).
      split; [now rewrite Em|exact W].
    + left. exists e. split; [unfold finish_merge; now rewrite Ei|]. eapply inst_merge_exn; eauto.
Qed.
(** [b] may follow [a] *)
Definition next_ok (r : registry) (o : bool) (a b : core) : Prop :=
  base_ok r b /\ ((plain_a o a /\ (o = true -> no_inner (rmatch b)) /\ (goto_table (inst b) <> None -> plain_a o b)) \/
                  (o = false /\ tame_a r a /\ outer_rule r b /\ goto_table (inst b) = None)).
Definition out_ok (r : registry) (o : bool) (c : core) : Prop := base_ok r c /\ (goto_table (inst c) <> None -> plain_a o c).
Lemma next_mono r r' o a b : rle r r' -> next_ok r o a b -> next_ok r' o a b.
Proof.
  intros L [H1 H2]. split; [now apply (base_mono r)|]. destruct H2 as [H2|(H2 & [H3 H4] & H5 & H6)]; [now left|]. right. split; [auto|].
  split; [split; [now apply (outer_mono r)|auto]|]. split; [now apply (outer_mono r)|auto].
Qed.
Lemma out_mono r r' o c : rle r r' -> out_ok r o c -> out_ok r' o c.
Proof. intros L [H1 H2]. split; [now apply (base_mono r)|auto]. Qed.
Lemma tmerge_ok r a b o r' res : reg_ok r -> base_ok r a -> next_ok r o a b -> core_merge a b o r = (r', res) ->
  reg_ok r' /\ rle r r' /\
  ((res = Err MergeExceptionNoOverlap /\ ~ exists T, hits_both_tall a b T) \/
   (exists e, res = Err e /\ is_merge_exn e = false) \/
   (exists c, res = Ok c /\ tmerged_core a b c /\ out_ok r' o c)).
Proof.
  intros Hr Ha [Hb [(Pa & Db & Pb)|(-> & Ta & Ob & Gb)]] H.
  - destruct (tmerge_plain r a b o r' res Hr Ha Hb Pa Db H) as (R & L & [Q|[Q|(c & E & M & Bc & Pc)]]); (split; [exact R|]; split; [exact L|]); [now left|right; now left|].
    right. right. exists c. split; [exact E|]. split; [exact M|]. split; [exact Bc|]. rewrite (sq_goto _ _ _ (tmc_inst _ _ _ M)). intros G. apply Pc; auto.
  - destruct (tmerge_tame r a b r' res Hr Ta Ob H) as (R & L & [Q|[Q|(c & E & M & Bc)]]); (split; [exact R|]; split; [exact L|]); [now left|right; now left|].
    right. right. exists c. split; [exact E|]. split; [exact M|]. split; [exact Bc|]. rewrite (sq_goto _ _ _ (tmc_inst _ _ _ M)). intros G. now destruct G.
Qed.

(** ** Condensing two tables *)
Definition tmerged (a b c : rule) : Prop := tmerged_core (rcore a) (rcore b) (rcore c).
Definition outs (r : registry) (o : bool) (l : list rule) : Prop := Forall (fun x => out_ok r o (rcore x)) l.
Definition nexts (r : registry) (o : bool) (a : rule) (l : list rule) : Prop := Forall (fun b => next_ok r o (rcore a) (rcore b)) l.
Lemma outs_mono r r' o l : rle r r' -> outs r o l -> outs r' o l.
Proof. intros L. apply Forall_impl. intros x. now apply out_mono. Qed.
Lemma nexts_mono r r' o a l : rle r r' -> nexts r o a l -> nexts r' o a l.
Proof. intros L. apply Forall_impl. intros x. now apply next_mono. Qed.
Inductive tblock (a : rule) : list rule -> list rule -> Prop :=
| tb_nil : tblock a [] []
| tb_skip b S B : (~ exists T, hits_both_tall (rcore a) (rcore b) T) -> tblock a S B -> tblock a (b :: S) B
| tb_merge b c S B : tmerged a b c -> tblock a S B -> tblock a (b :: S) (c :: B).
Lemma tblock_ok o a : forall S res r r' out, reg_ok r -> base_ok r (rcore a) -> nexts r o a S ->
  sfold (condense_pair o a) S res r = (r', Ok out) ->
  reg_ok r' /\ rle r r' /\ exists B, out = res ++ B /\ tblock a S B /\ outs r' o B.
Proof.
  induction S as [|b S IH]; intros res r r' out Hr Ga GS H; cbn [sfold] in H.
  - injection H as <- <-. split; [auto|]. split; [apply rle_refl|]. exists []. rewrite app_nil_r. split; [auto|]. split; [constructor|constructor].
  - inversion GS as [|? ? Gb GS']; subst. apply sbind_ok in H as (r1 & acc & E & H). unfold condense_pair in E.
    destruct (core_merge (rcore a) (rcore b) o r) as [r2 res2] eqn:Em.
    destruct (tmerge_ok r (rcore a) (rcore b) o r2 res2 Hr Ga Gb Em) as (R2 & L2 & [[-> N]|[(e & -> & Ee)|(c & -> & Mc & Gc)]]).
    + cbn [is_merge_exn] in E. injection E as <- <-.
      destruct (IH _ _ _ _ R2 (base_mono _ _ _ L2 Ga) (nexts_mono _ _ _ _ _ L2 GS') H) as (R3 & L3 & B & -> & HB & GB).
      split; [auto|]. split; [eapply rle_trans; eauto|]. exists B. split; [auto|]. split; [now constructor|auto].
    + rewrite Ee in E. discriminate E.
    + injection E as <- <-.
      destruct (IH _ _ _ _ R2 (base_mono _ _ _ L2 Ga) (nexts_mono _ _ _ _ _ L2 GS') H) as (R3 & L3 & B & -> & HB & GB).
      split; [auto|]. split; [eapply rle_trans; eauto|]. eexists (_ :: B). rewrite <- app_assoc. split; [reflexivity|]. split; [|constructor; [|exact GB]].
      * apply tb_merge; [|auto]. exact Mc.
      * eapply out_mono; [exact L3|exact Gc].
Qed.
(** what holds of the rules before table [t] is merged in, whatever table that is *)
Definition cgood (rs : list rule) (r : registry) (o : bool) (c : core) : Prop :=
  base_ok r c /\ forall t, goto_table (inst c) = Some t -> plain_a o c \/
    (o = false /\ tame_a r c /\ forall x, In x rs -> table (rcore x) = t -> outer_rule r (rcore x) /\ goto_table (inst (rcore x)) = None).
Definition cgoods rs r o (l : list rule) : Prop := Forall (fun x => cgood rs r o (rcore x)) l.
Lemma cgood_mono rs r r' o c : rle r r' -> cgood rs r o c -> cgood rs r' o c.
Proof.
  intros L [H1 H2]. split; [now apply (base_mono r)|]. intros t Ht. destruct (H2 t Ht) as [H|(H & [H3 H4] & H5)]; [now left|]. right. split; [auto|].
  split; [split; [now apply (outer_mono r)|auto]|]. intros x Hx Tx. destruct (H5 x Hx Tx). split; [now apply (outer_mono r)|auto].
Qed.
Lemma cgoods_mono rs r r' o l : rle r r' -> cgoods rs r o l -> cgoods rs r' o l.
Proof. intros L. apply Forall_impl. intros x. now apply cgood_mono. Qed.
Lemma out_cgood rs r o l : outs r o l -> cgoods rs r o l.
Proof. apply Forall_impl. intros x [H1 H2]. split; [exact H1|]. intros t Ht. left. apply H2. congruence. Qed.
Inductive tcondensed (t : Z) (S : list rule) : list rule -> list rule -> Prop :=
| tc_nil : tcondensed t S [] []
| tc_keep a C R : goto_table (inst (rcore a)) <> Some t -> tcondensed t S C R -> tcondensed t S (a :: C) (a :: R)
| tc_merge a C B R : goto_table (inst (rcore a)) = Some t -> tblock a S B -> tcondensed t S C R -> tcondensed t S (a :: C) (B ++ R).
Lemma tcondense_ok rs o t S : forall C res r r' out, reg_ok r -> cgoods rs r o C ->
  (forall a r1, rle r r1 -> cgood rs r1 o (rcore a) -> goto_table (inst (rcore a)) = Some t -> nexts r1 o a S) ->
  sfold (condense_rule o S t) C res r = (r', Ok out) ->
  reg_ok r' /\ rle r r' /\ exists R, out = res ++ R /\ tcondensed t S C R /\ cgoods rs r' o R.
Proof.
  induction C as [|a C IH]; intros res r r' out Hr GC GS H; cbn [sfold] in H.
  - injection H as <- <-. split; [auto|]. split; [apply rle_refl|]. exists []. rewrite app_nil_r. split; [auto|]. split; [constructor|constructor].
  - inversion GC as [|? ? Ga GC']; subst. apply sbind_ok in H as (r1 & acc & E & H). unfold condense_rule in E.
    destruct (opt_eqb Z.eqb (goto_table (inst (rcore a))) (Some t)) eqn:Eg.
    + apply goto_eqb in Eg. apply (tblock_ok o a _ _ _ _ _ Hr (proj1 Ga) (GS a r (rle_refl r) Ga Eg)) in E as (R1 & L1 & B & -> & HB & GB).
      destruct (IH (res ++ B) r1 r' out R1 (cgoods_mono _ _ _ _ _ L1 GC')) as (R2 & L2 & R & -> & HR & GR); [|exact H|].
      { intros a' r2 L2. apply GS. eapply rle_trans; eauto. }
      split; [auto|]. split; [eapply rle_trans; eauto|]. exists (B ++ R). rewrite app_assoc. split; [reflexivity|]. split; [now apply tc_merge|].
      apply Forall_app. split; [|auto]. apply out_cgood. eapply outs_mono; eauto.
    + assert (Ng : goto_table (inst (rcore a)) <> Some t) by (intros Q; apply goto_eqb in Q; congruence).
      unfold sret in E. injection E as <- <-. destruct (IH _ _ _ _ Hr GC' GS H) as (R2 & L2 & R & -> & HR & GR).
      split; [auto|]. split; [auto|]. exists (a :: R). rewrite <- app_assoc. split; [reflexivity|]. split; [now apply tc_keep|].
      constructor; [|auto]. eapply cgood_mono; eauto.
Qed.
Lemma tblock_accepts a S B T c : tblock a S B -> In c B -> rule_accepts c (tview T) -> rule_accepts a (tview T).
Proof.
  induction 1 as [|b S B N H IH|b c' S B Hm H IH]; intros Hi Ha; [destruct Hi|auto|].
  destruct Hi as [<-|Hi]; [|auto]. apply (tmc_match _ _ _ Hm) in Ha as [Ha _]. exact Ha.
Qed.
Lemma tblock_first a S B T s : tblock a S B -> rule_accepts a (tview T) -> first_match S (tview (after_rule (rcore a) T)) (Some s) ->
  exists c, first_match B (tview T) (Some c) /\ tmerged a s c.
Proof.
  intros H Ha. induction H as [|b S B N H IH|b c' S B Hm H IH]; intros F; [inversion F| |].
  - inversion F as [|? ? ? A|? ? ? ? A F']; subst; [|auto]. exfalso. apply N. exists T. split; auto.
  - inversion F as [|? ? ? A|? ? ? ? A F']; subst.
    + exists c'. split; [|auto]. apply fm_hit. apply (tmc_match _ _ _ Hm). split; auto.
    + destruct (IH F') as (c & Fc & Mc). exists c. split; [|auto]. apply fm_miss; [|auto]. intros Q. apply A.
      apply (tmc_match _ _ _ Hm) in Q as [_ Q]. exact Q.
Qed.
Lemma tcondensed_first t S C R T a : tcondensed t S C R -> first_match C (tview T) (Some a) ->
  (goto_table (inst (rcore a)) <> Some t -> first_match R (tview T) (Some a)) /\
  (forall s, goto_table (inst (rcore a)) = Some t -> first_match S (tview (after_rule (rcore a) T)) (Some s) ->
     exists c, first_match R (tview T) (Some c) /\ tmerged a s c).
Proof.
  intros H. induction H as [|a' C R G H IH|a' C B R G HB H IH]; intros F; [inversion F| |].
  - inversion F as [|? ? ? A|? ? ? ? A F']; subst.
    + split; [intros _; now apply fm_hit|]. intros s Hg. contradiction.
    + destruct (IH F') as [I1 I2]. split; [intros Q; apply fm_miss; auto|]. intros s Hg Fs. destruct (I2 s Hg Fs) as (c & Fc & Mc).
      exists c. split; [now apply fm_miss|auto].
  - inversion F as [|? ? ? A|? ? ? ? A F']; subst.
    + split; [contradiction|]. intros s _ Fs. destruct (tblock_first _ _ _ _ _ HB A Fs) as (c & Fc & Mc). exists c. split; [now apply fm_app_l|auto].
    + assert (N : forall x, In x B -> ~ rule_accepts x (tview T)) by (intros x Hx Ax; apply A; eapply tblock_accepts; eauto).
      destruct (IH F') as [I1 I2]. split; [intros Q; apply fm_app_r; auto|]. intros s Hg Fs. destruct (I2 s Hg Fs) as (c & Fc & Mc).
      exists c. split; [now apply fm_app_r|auto].
Qed.

(** ** The single table follows the pipeline *)
(** Rules without a goto may push and pop as they like. A rule with one does not, or is in table 0,
    its tag operations can be followed and the rules of the table it goes to have no goto (then
    the result may need matches on inner tags, so not for OpenFlow). *)
Definition tag_rule (rs : list rule) (reg : registry) (o : bool) (r : rule) : Prop :=
  base_ok reg (rcore r) /\ (o = true -> no_inner (rmatch (rcore r))) /\ 0 <= priority (rcore r) /\ 0 <= table (rcore r) /\
  forall t, goto_table (inst (rcore r)) = Some t -> table (rcore r) < t /\
    (plain_inst (inst (rcore r)) \/
     (o = false /\ table (rcore r) = 0 /\ tame_a reg (rcore r) /\
      forall x, In x rs -> table (rcore x) = t -> outer_rule reg (rcore x) /\ goto_table (inst (rcore x)) = None)).
Definition ttracks (rs : list rule) (done : list Z) (T : tall) (c : rule) : Prop :=
  exists app ws S, teq app (orig_order (apply_actions (inst (rcore c)))) /\ weq ws (orig_order (write_actions (inst (rcore c)))) /\
  match goto_table (inst (rcore c)) with
  | Some t => same_tall S (after_rule (rcore c) T) /\ ~ In t done /\ forall miss a w, tpipeline rs t S app ws miss a w -> tpipeline rs 0 T [] [] miss a w
  | None => exists miss, tpipeline rs 0 T [] [] miss app ws
  end.
Section TMain.
  Variables (reg : registry) (o : bool) (rs : list rule) (f : Z -> Z) (g : rule -> list core) (F : list Z).
  Hypothesis Hrs : Forall (tag_rule rs reg o) rs.
  Hypothesis Htot : total_tables rs.
  Hypothesis Hf : forall u, 0 < f u.
  Let rs2 := map (rescale f g) rs.
  Let rs3 := rs2 ++ map filler F.
  Hypothesis HF : forall u, In u F -> forall x, In x rs2 -> table (rcore x) = u -> priority (rcore x) <> 0.
  Hypothesis Hfill : forall t, In t (tables_of rs) -> exists x, In x rs3 /\ table (rcore x) = t /\ priority (rcore x) = 0.

  Lemma filler_base r t : base_ok r (rcore (filler t)).
  Proof. split; [apply match_new_ok|apply inst_empty_wf]. Qed.
  Lemma filler_outer r t : outer_rule r (rcore (filler t)).
  Proof. split; [apply match_new_ok|]. split; [apply inst_empty_wf|]. split; intros k []. Qed.
  Lemma rs3_cases x : In x rs3 -> (exists y, In y rs /\ x = rescale f g y) \/ exists t, x = filler t.
  Proof. intros H. apply in_app_or in H as [H|H]; apply in_map_iff in H as (y & <- & Hy); eauto. Qed.
  Lemma rs_in y : In y rs -> tag_rule rs reg o y.
  Proof. intros H. now apply (proj1 (Forall_forall _ _) Hrs). Qed.
  Lemma rs3_cgood r x : rle reg r -> In x rs3 -> cgood rs r o (rcore x).
  Proof.
    intros L Hx. apply rs3_cases in Hx as [(y & Hy & ->)|(t & ->)].
    - apply (cgood_mono _ _ _ _ _ L). destruct (rs_in y Hy) as (B & D & _ & _ & G). split; [exact B|]. intros t Ht. destruct (G t Ht) as [_ [P|(-> & _ & Ta & Q)]].
      + left. split; [exact P|exact D].
      + right. auto.
    - split; [apply filler_base|]. discriminate.
  Qed.
  Lemma rs3_nexts r t a : rle reg r -> 0 < t -> cgood rs r o (rcore a) -> goto_table (inst (rcore a)) = Some t -> nexts r o a (sort_prio (filter (in_table t) rs3)).
  Proof.
    intros L Ht [_ Ga] Eg. apply Forall_forall. intros x Hx. apply (Permutation_in x (Permutation_sym (sort_prio_perm _))), filter_In in Hx as [Hx Tx].
    unfold in_table in Tx. apply Z.eqb_eq in Tx. apply rs3_cases in Hx as [(y & Hy & ->)|(u & ->)].
    - destruct (rs_in y Hy) as (B & D & _ & _ & G). cbn [rescale rcore with_priority table] in Tx. split; [apply (base_mono _ _ _ L); exact B|].
      destruct (Ga t Eg) as [P|(Ho & Ta & Q)].
      + left. split; [exact P|]. split; [exact D|]. intros Gy. change (inst (rcore (rescale f g y))) with (inst (rcore y)) in Gy.
        destruct (goto_table (inst (rcore y))) as [v|] eqn:Ev; [|now destruct Gy]. destruct (G v eq_refl) as [_ [Py|(_ & T0 & _)]]; [split; [exact Py|exact D]|lia].
      + right. split; [auto|]. split; [auto|]. destruct (Q y Hy Tx) as [Q1 Q2]. split; [exact Q1|exact Q2].
    - split; [apply filler_base|]. destruct (Ga t Eg) as [P|(Ho & Ta & _)].
      + left. split; [exact P|]. split; [reflexivity|]. intros N. now destruct N.
      + right. split; [auto|]. split; [auto|]. split; [apply filler_outer|reflexivity].
  Qed.
  Lemma ttable_first t q : In t (tables_of rs) ->
    exists s, first_match (sort_prio (filter (in_table t) rs3)) q (Some s) /\
      ((exists r, s = rescale f g r /\ table_hit rs t q r) \/ (s = filler t /\ table_miss rs t q)).
  Proof.
    intros Ht. assert (Hok : NormaliseProofs.rules_ok reg (sort_prio (filter (in_table t) rs3))).
    { intros x Hx. apply (Permutation_in x (Permutation_sym (sort_prio_perm _))), filter_In in Hx as [Hx _].
      destruct (rs3_cgood reg x (rle_refl reg) Hx) as [[M _] _]. exact M. }
    destruct (NormaliseProofs.first_match_total reg _ q Hok) as [[s|] Hs].
    - exists s. split; [auto|]. assert (Hit := sorted_hit _ _ _ _ Hs).
      apply (filled_hit f g F); auto. intros r Hr. now destruct (rs_in r Hr) as (_ & _ & Q & _).
    - exfalso. rewrite fm_none_iff in Hs. assert (N : forall x, In x rs3 -> table (rcore x) = t -> ~ rule_accepts x q).
      { intros x Hx Tx. apply Hs. apply (Permutation_in x (sort_prio_perm _)), filter_In. split; [auto|]. unfold in_table. lia. }
      destruct (Hfill t Ht) as (x & Hx & Tx & Px). apply in_app_or in Hx as [Hx|Hx].
      + apply in_map_iff in Hx as (r & <- & Hr). cbn [rescale rcore with_priority table priority] in *.
        assert (P0 : priority (rcore r) = 0) by (specialize (Hf (table (rcore r))); nia).
        destruct (Htot r Hr P0 q) as (y & Hy & Ty & Ay). apply (N (rescale f g y)); [apply in_or_app; left; now apply in_map| |exact Ay].
        cbn [rescale rcore with_priority table]. congruence.
      + assert (Hx' := Hx). apply in_map_iff in Hx' as (u & <- & Hu). apply (N (filler u)); [apply in_or_app; now right|auto|].
        intros it Hit. destruct Hit.
  Qed.
  Lemma thit_rule t q r : table_hit rs t q r -> tag_rule rs reg o r.
  Proof. intros (l1 & l2 & E & _). apply rs_in. rewrite E. apply in_or_app. right. now left. Qed.

  Definition tfollows (done : list Z) (r : registry) (C : list rule) : Prop :=
    reg_ok r /\ rle reg r /\ cgoods rs r o C /\ forall T, exists c, first_match C (tview T) (Some c) /\ ttracks rs done T c.

  Lemma tstart_follows : reg_ok reg -> In 0 (tables_of rs) -> tfollows [0] reg (sort_prio (filter (in_table 0) rs3)).
  Proof.
    intros Hr H0. split; [auto|]. split; [apply rle_refl|]. split.
    - apply Forall_forall. intros x Hx. apply (Permutation_in x (Permutation_sym (sort_prio_perm _))), filter_In in Hx as [Hx _]. apply rs3_cgood; [apply rle_refl|auto].
    - intros T. destruct (ttable_first 0 (tview T) H0) as (s & Fs & [(r & -> & Hit)|(-> & Miss)]); eexists; (split; [exact Fs|]).
      + destruct (thit_rule _ _ _ Hit) as (_ & _ & _ & _ & Hg). unfold ttracks. change (inst (rcore (rescale f g r))) with (inst (rcore r)).
        exists (applied_after (inst (rcore r)) []), (writes_after (inst (rcore r)) []), (after_rule (rcore r) T).
        split; [apply te_refl|]. split; [apply weq_nil_l|].
        destruct (goto_table (inst (rcore r))) as [t|] eqn:Eg.
        * split; [apply same_tall_refl|]. split.
          -- intros [<-|[]]. destruct (Hg 0 eq_refl) as [Hlt _]. destruct Hit as (l1 & l2 & _ & Tt & _). lia.
          -- intros miss a w Ho. eapply tp_goto; eauto.
        * exists false. eapply tp_stop; eauto.
      + unfold ttracks. rewrite filler_insts. exists [], [], T. split; [apply te_refl|]. split; [apply weq_refl|].
        cbn [goto_table inst_empty]. exists true. now apply tp_miss.
  Qed.
  Lemma tstep_follows done t r C r' R : tfollows done r C -> In t (tables_of rs) -> 0 < t -> (forall u, In u done -> u < t) ->
    next_table o rs3 C t r = (r', Ok R) -> tfollows (done ++ [t]) r' R.
  Proof.
    intros (Hr & L & GC & HC) Ht Hpos Hd H. unfold next_table, single_table_condense in H.
    destruct (tcondense_ok rs o t (sort_prio (filter (in_table t) rs3)) C [] r r' R Hr GC) as (R' & L' & R0 & -> & HR & GR); [|exact H|].
    { intros a r1 L1 Ga Eg. apply rs3_nexts; auto. eapply rle_trans; eauto. }
    cbn [app]. split; [auto|]. split; [eapply rle_trans; eauto|]. split; [auto|]. intros T. destruct (HC T) as (c & Fc & app & ws & S & Ta & Ww & Hgo).
    destruct (tcondensed_first _ _ _ _ T c HR Fc) as [Keep Mrg]. destruct (goto_table (inst (rcore c))) as [u|] eqn:Eg.
    - destruct Hgo as (Eq & Nd & Hgo). destruct (Z.eq_dec u t) as [->|Ne].
      + destruct (ttable_first t (tview S) Ht) as (s & Fs & Hs). apply (fm_ext _ _ _ _ (same_view _ _ Eq)) in Fs. destruct (Mrg s eq_refl Fs) as (m & Fm & Mm).
        exists m. split; [auto|]. assert (Sq := tmc_inst _ _ _ Mm).
        assert (Tapp : teq (applied_after (inst (rcore s)) app) (orig_order (apply_actions (inst (rcore m))))).
        { eapply te_trans; [|apply (sq_apply _ _ _ Sq)]. unfold applied_after. apply ateq_app; [auto|apply te_refl]. }
        assert (Twr : weq (writes_after (inst (rcore s)) ws) (orig_order (write_actions (inst (rcore m))))).
        { eapply weq_trans; [|apply (sq_write _ _ _ Sq)]. unfold writes_after. apply weq_app; [|apply weq_refl]. destruct (clear_actions _); [apply weq_refl|auto]. }
        exists (applied_after (inst (rcore s)) app), (writes_after (inst (rcore s)) ws), (after_rule (rcore s) S).
        split; [exact Tapp|]. split; [exact Twr|]. rewrite (sq_goto _ _ _ Sq). destruct Hs as [(x & -> & Hit)|(-> & Miss)].
        * destruct (thit_rule _ _ _ Hit) as (_ & _ & _ & _ & Hg). change (inst (rcore (rescale f g x))) with (inst (rcore x)). destruct (goto_table (inst (rcore x))) as [v|] eqn:Ev.
          -- destruct (Hg v eq_refl) as (Hlt & Hpl). assert (Tx : table (rcore x) = t) by (destruct Hit as (l1 & l2 & _ & Tx & _); exact Tx).
             assert (Px : plain_inst (inst (rcore x))) by (destruct Hpl as [P|(_ & T0 & _)]; [exact P|lia]).
             split; [|split].
             ++ apply same_tall_sym. eapply same_tall_trans; [apply (tmc_after _ _ _ Mm); now apply plain_no_meta|]. apply inst_cong. now apply same_tall_sym.
             ++ intros Hv. apply in_app_or in Hv as [Hv|[<-|[]]]; [|lia]. specialize (Hd v Hv). lia.
             ++ intros miss a w Ho. apply Hgo. eapply tp_goto; eauto.
          -- exists false. apply Hgo. eapply tp_stop; eauto.
        * rewrite filler_insts in *. cbn [goto_table inst_empty]. exists true. apply Hgo.
          unfold applied_after, writes_after in *. cbn [apply_actions write_actions clear_actions inst_empty orig_order al_empty] in *. rewrite !app_nil_r.
          now apply tp_miss.
      + assert (Ng : Some u <> Some t) by congruence. specialize (Keep Ng). exists c. split; [auto|]. exists app, ws, S. split; [auto|]. split; [auto|].
        rewrite Eg. split; [auto|]. split; [|auto]. intros Hu. apply in_app_or in Hu as [Hu|[Hu|[]]]; [auto|congruence].
    - assert (Ng : None <> Some t) by congruence. specialize (Keep Ng). exists c. split; [auto|]. exists app, ws, S. split; [auto|]. split; [auto|].
      now rewrite Eg.
  Qed.
  Lemma tsteps_follow rest : forall done r C r' R, tfollows done r C -> In 0 done -> StronglySorted Z.lt (done ++ rest) -> (forall t, In t rest -> In t (tables_of rs)) ->
    sfold (next_table o rs3) rest C r = (r', Ok R) -> tfollows (done ++ rest) r' R.
  Proof.
    induction rest as [|t rest IH]; intros done r C r' R HC H0 Hs Hin H; cbn [sfold] in H.
    - unfold sret in H. injection H as <- <-. now rewrite app_nil_r.
    - apply sbind_ok in H as (r1 & C1 & E & H). replace (done ++ t :: rest) with ((done ++ [t]) ++ rest) in * by (now rewrite <- app_assoc).
      assert (Hlt : forall u, In u done -> u < t).
      { intros u Hu. clear - Hs Hu. rewrite <- app_assoc in Hs. induction done as [|x d IHd]; [destruct Hu|].
        cbn [app] in Hs. inversion Hs as [|? ? H1 H2]; subst. destruct Hu as [->|Hu]; [|auto]. rewrite Forall_forall in H2. apply H2. apply in_or_app. right. now left. }
      apply (IH _ r1 C1); [|apply in_or_app; now left|exact Hs| |exact H].
      + eapply tstep_follows; eauto. apply Hin. now left.
      + intros u Hu. apply Hin. now right.
  Qed.
  Lemma tfollows_end done r C T : tfollows done r C -> (forall t, In t (tables_of rs) -> In t done) ->
    exists c app ws, first_match C (tview T) (Some c) /\ base_ok r (rcore c) /\ teq app (orig_order (apply_actions (inst (rcore c)))) /\ weq ws (orig_order (write_actions (inst (rcore c)))) /\
    exists miss, tpipeline rs 0 T [] [] miss app ws.
  Proof.
    intros (_ & _ & GC & HC) Hd. destruct (HC T) as (c & Fc & app & ws & S & Ta & Ww & Hgo). exists c, app, ws. split; [auto|]. split.
    { apply NormaliseProofs.first_match_in in Fc as [Ic _]. unfold cgoods in GC. rewrite Forall_forall in GC. apply (GC c Ic). }
    split; [auto|]. split; [auto|]. destruct (goto_table (inst (rcore c))) as [t|]; [|auto]. destruct Hgo as (_ & Nt & Hgo). exists true. apply Hgo.
    apply tp_miss. intros x Hx Tx _. apply Nt, Hd, tables_of_in. eauto.
  Qed.
End TMain.
Lemma tpipeline_det rs t T done ws m1 a1 w1 m2 a2 w2 : tpipeline rs t T done ws m1 a1 w1 -> tpipeline rs t T done ws m2 a2 w2 ->
  m1 = m2 /\ a1 = a2 /\ w1 = w2.
Proof.
  intros H. revert m2 a2 w2. induction H as [t T done ws r t' m a w Hit G H IH|t T done ws r Hit G|t T done ws M]; intros m2 a2 w2 H2.
  - inversion H2 as [? ? ? ? r2 t2 ? ? ? Hit2 G2 H2'|? ? ? ? r2 Hit2 G2|? ? ? ? M2]; subst; try (exfalso; eapply hit_not_miss; eassumption);
      assert (r2 = r) by (eapply hit_unique; eauto); subst r2; rewrite G in G2; [|discriminate G2]. injection G2 as <-. auto.
  - inversion H2 as [? ? ? ? r2 t2 ? ? ? Hit2 G2 H2'|? ? ? ? r2 Hit2 G2|? ? ? ? M2]; subst; try (exfalso; eapply hit_not_miss; eassumption);
      assert (r2 = r) by (eapply hit_unique; eauto); subst r2; rewrite G in G2; [discriminate G2|]. auto.
  - inversion H2 as [? ? ? ? r2 t2 ? ? ? Hit2 G2 H2'|? ? ? ? r2 Hit2 G2|? ? ? ? M2]; subst; try (exfalso; eapply hit_not_miss; eassumption). auto.
Qed.
Lemma tsingle_run rs o reg r' single : reg_ok reg -> Forall (tag_rule rs reg o) rs -> total_tables rs ->
  to_single_table rs o reg = (r', Ok single) -> tfollows reg o rs (tables_of rs) r' single.
Proof.
  intros Hreg Hrs Htot H. unfold to_single_table in H. apply sbind_ok in H as (r1 & rs1 & E1 & H). unfold slift in E1. injection E1 as <- E1.
  destruct (scale_ok _ _ E1) as (f & Hf & -> & Hmax & _). unfold to_single_table_scaled in H.
  rewrite tables_of_map in H by reflexivity. destruct (existsb (Z.eqb 0) (tables_of rs)) eqn:E0; cbn [negb] in H; [|discriminate H].
  assert (I0 : In 0 (tables_of rs)) by (apply existsb_exists in E0 as (x & Hx & E); apply Z.eqb_eq in E; now subst x).
  rewrite set_path_rescale in H.
  match type of H with context [map (rescale f ?g) rs] => set (g0 := g) in * end.
  destruct (fill_defaults (tables_of rs) (map (rescale f g0) rs)) as (F & EF & HF & Hfill). rewrite EF in H.
  assert (T0 : exists rest, tables_of rs = 0 :: rest).
  { assert (St := tables_of_sorted rs). destruct (tables_of rs) as [|t ts] eqn:Et; [destruct I0|]. exists ts. f_equal.
    inversion St as [|? ? _ Hlt]; subst. destruct I0 as [->|I0]; [reflexivity|]. rewrite Forall_forall in Hlt. specialize (Hlt 0 I0).
    assert (It : In t (tables_of rs)) by (rewrite Et; now left). apply tables_of_in in It as (r & Hr & Tr). rewrite Forall_forall in Hrs.
    destruct (Hrs r Hr) as (_ & _ & _ & Q & _). lia. }
  destruct T0 as (rest & T0). assert (HF' : forall u, In u F -> forall x, In x (map (rescale f g0) rs) -> table (rcore x) = u -> priority (rcore x) <> 0) by (intros u Hu; apply HF, Hu).
  assert (St := tables_of_sorted rs). assert (Hin : forall t, In t rest -> In t (tables_of rs)) by (intros t Ht; rewrite T0; now right).
  remember (tables_of rs) as ts eqn:Ets. rewrite T0 in H |- *. change (0 :: rest) with ([0] ++ rest). subst ts.
  eapply tsteps_follow with (f := f) (g := g0) (F := F); eauto.
  - apply tstart_follows; auto.
  - now left.
  - cbn [app]; now rewrite <- T0.
Qed.
Lemma tsingle_table_ok rs o reg r' single : reg_ok reg -> Forall (tag_rule rs reg o) rs -> total_tables rs ->
  to_single_table rs o reg = (r', Ok single) -> forall T, exists c, first_match single (tview T) (Some c) /\
  (exists out, texecutes false rs T out) /\
  (forall l out, full_actions (inst (rcore c)) = Ok l -> texecutes false rs T out -> teq out (al_iter l)).
Proof.
  intros Hreg Hrs Htot H T. assert (Hfol := tsingle_run _ _ _ _ _ Hreg Hrs Htot H).
  destruct (tfollows_end _ _ _ _ _ _ T Hfol (fun t Ht => Ht)) as (c & app & ws & Fc & Gc & Ta & Ww & miss & Hout). exists c. split; [auto|].
  destruct Gc as (_ & (Ia & Iw)). assert (Iw' : set_inv (write_actions (inst (rcore c))) ws) by (eapply set_inv_weq; [exact Iw|]; now apply weq_sym).
  split; [exists (app ++ orig_order (write_actions (inst (rcore c)))), miss, app, ws; eexists; split; [exact Hout|]; split; [exact (set_inv_list _ _ Iw')|]; now rewrite andb_false_r|].
  intros l out Hl (m' & a' & w' & s & Hp & Hs & ->). destruct (tpipeline_det _ _ _ _ _ _ _ _ _ _ _ Hp Hout) as (-> & -> & ->).
  rewrite andb_false_r. destruct (al_add_ok _ _ _ _ _ Ia (proj1 Iw) Hl) as [Al Tl].
  eapply te_trans; [|apply al_ok_iter, Al]. eapply te_trans; [|exact Tl]. apply ateq_app; [auto|]. eapply set_list_same; eauto.
Qed.
