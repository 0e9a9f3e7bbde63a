(** Proofs about Lazy.v. *)
From Verif Require Export Lazy SpecLazy NormaliseProofs PerOutputProofs.
From Verif Require Import MatchWcProofs.
From Verif Require SpecEager SingleTableProofs EagerSem.
From Coq Require Import Lia Permutation Sorted ZifyBool ZifyNat ZifyN.
Local Open Scope string_scope.
Local Open Scope list_scope.
Local Open Scope Z_scope.
Local Opaque NB WC_FULLWC layout oxm_fields registry_init extra_padding.

(** ** The diagrams never test the padding *)
Definition upd (p : packet) (i : Z) (v : bool) : packet := fun j => if j =? i then v else p j.
Lemma upd_at p i v : upd p i v i = v. Proof. unfold upd. now rewrite Z.eqb_refl. Qed.
Lemma upd_ne p i v j : j <> i -> upd p i v j = p j. Proof. unfold upd. intros H. destruct (Z.eqb_spec j i); [contradiction|reflexivity]. Qed.
Lemma adenote_ext f p q : (forall i, p i = q i) -> adenote f p = adenote f q.
Proof. intros H. induction f as [v|n t IHt e IHe]; cbn [adenote]; [reflexivity|]. rewrite H. destruct (q _); auto. Qed.
Fixpoint tests (m : Z) (f : add) : Prop := match f with AConst _ => False | ANode n t e => n = m \/ tests m t \/ tests m e end.
Lemma adenote_above f : forall lo n v p, add_wf lo f -> n < lo -> adenote f (upd p (NB - 1 - n) v) = adenote f p.
Proof.
  induction f as [x|k t IHt e IHe]; intros lo n v p W L; cbn [adenote]; [reflexivity|]. destruct W as (Hk & _ & Wt & We).
  rewrite upd_ne by lia.
  destruct (p _); [apply (IHt (k + 1))|apply (IHe (k + 1))]; auto; lia.
Qed.
Lemma untested f m : forall lo, add_wf lo f -> (forall p v, adenote f (upd p (NB - 1 - m) v) = adenote f p) -> ~ tests m f.
Proof.
  induction f as [x|n t IHt e IHe]; intros lo W D; cbn [tests]; [tauto|]. destruct W as (Hn & Hd & Wt & We).
  destruct (Z.eq_dec n m) as [->|N].
  - exfalso. apply Hd, (adenote_inj (m + 1)); auto. intros p.
    assert (T := D p true). assert (F := D p false). cbn [adenote] in T, F. rewrite upd_at in T, F.
    rewrite (adenote_above t (m + 1)) in T by (auto; lia). rewrite (adenote_above e (m + 1)) in F by (auto; lia). congruence.
  - assert (S : forall b (g : add), g = (if (b : bool) then t else e) -> forall p v, adenote g (upd p (NB - 1 - m) v) = adenote g p).
    { intros b g Eg p v. assert (Wg : add_wf (n + 1) g) by (subst g; destruct b; auto).
      assert (X := D (upd p (NB - 1 - n) b) v). cbn [adenote] in X. rewrite upd_ne in X by lia. rewrite upd_at in X.
      assert (Y : forall q, (if b then adenote t q else adenote e q) = adenote g q) by (intros q; subst g; destruct b; reflexivity).
      rewrite !Y in X. rewrite (adenote_above g (n + 1) n b p) in X by (auto; lia). rewrite <- X.
      rewrite <- (adenote_above g (n + 1) n b (upd p (NB - 1 - m) v)) by (auto; lia).
      apply adenote_ext. intros i. unfold upd. destruct (Z.eqb_spec i (NB - 1 - m)), (Z.eqb_spec i (NB - 1 - n)); auto; lia. }
    intros [H|[H|H]]; [auto|apply (IHt (n + 1) Wt (S true t eq_refl) H)|apply (IHe (n + 1) We (S false e eq_refl) H)].
Qed.
Definition open_at (i w : Z) : Prop := Z.testbit w (2 * i) = true /\ Z.testbit w (2 * i + 1) = true.
Lemma paths_open f i : 0 <= i < NB -> forall wc lo, add_wf lo f -> 0 <= lo -> open_at i wc -> ~ tests (NB - 1 - i) f ->
  forall w t, In (w, t) (cudd_to_wcs_rec f wc) -> open_at i w.
Proof.
  intros Hi. induction f as [x|n t IHt e IHe]; intros wc lo W L P T w d H; cbn [cudd_to_wcs_rec] in H.
  - destruct (x =? 0); [destruct H|]. destruct H as [[= <- _]|[]]. exact P.
  - destruct W as (Hn & _ & Wt & We). cbn [tests] in T.
    assert (St : forall k, k = 1 \/ k = 2 -> open_at i (Z.land wc (Z.lnot (Z.shiftl k ((NB - 1 - n) * 2))))).
    { intros k Hk. destruct P as [P1 P2]. split; rewrite clear_bit by (auto; lia); rewrite ?P1, ?P2; cbn [andb]; apply negb_true_iff, Z.eqb_neq; lia. }
    apply in_app_or in H as [H|H]; [eapply (IHe _ (n + 1) We ltac:(lia) (St 2 ltac:(auto))); eauto|eapply (IHt _ (n + 1) Wt ltac:(lia) (St 1 ltac:(auto))); eauto].
Qed.
(** Two headers that agree on the fields in [F]; rules that match on no other. *)
Definition same_fields (F : string -> Prop) (p q : packet) : Prop :=
  forall s j, In s layout -> F (sl_name s) -> 0 <= j < sl_bits s -> field_bit p s j = field_bit q s j.
Definition match_on (F : string -> Prop) (rules : list rule) : Prop :=
  forall r it, In r rules -> In it (items_view (m_items (rmatch (rcore r)))) -> F (fst it).
Lemma accepts_fields (F : string -> Prop) ms p q : (forall it, In it ms -> F (fst it)) -> same_fields F p q -> match_accepts ms p -> match_accepts ms q.
Proof.
  intros HF S H it Hit s Hs En j Hj Hm. rewrite <- (H it Hit s Hs En j Hj Hm). symmetry. apply S; auto. rewrite En. auto.
Qed.
Lemma same_fields_sym F p q : same_fields F p q -> same_fields F q p.
Proof. intros H s j Hs Hf Hj. symmetry. auto. Qed.
Lemma first_match_fields F rules p q o : match_on F rules -> same_fields F p q -> first_match rules p o -> first_match rules q o.
Proof.
  intros M S H. revert M. induction H as [p|r rules p Hr|r rules p o Hr H IH]; intros M; [constructor| |].
  - constructor. eapply (accepts_fields F); [|exact S|exact Hr]. intros it. apply M. now left.
  - constructor; [intros X; apply Hr|apply IH; auto; intros r' it H1; apply M; now right].
    eapply (accepts_fields F); [|apply same_fields_sym, S|exact X]. intros it. apply M. now left.
Qed.
Lemma prescribes_fields F rules p q o : match_on F rules -> same_fields F p q -> prescribes rules p o -> prescribes rules q o.
Proof.
  intros M S [[H ->]|(r & d & H & E & ->)]; [left|right; exists r, d]; split; auto; eapply first_match_fields; eauto.
Qed.
(** A diagram that prescribes what rules prescribe. *)
Definition denotes (rules : list rule) (acts : list tkey) (b : add) : Prop :=
  exists f, NormaliseProofs.sem acts b f /\ forall p, prescribes rules p (f p).
Lemma denotes_fields F rules acts b p q : NoDup acts -> match_on F rules -> denotes rules acts b -> same_fields F p q -> adenote b p = adenote b q.
Proof.
  intros N M (f & (W & D) & P) S. eapply tta_inj; [exact N|apply D|]. rewrite D. do 2 f_equal.
  eapply prescribes_unique; [apply P|]. eapply prescribes_fields; [exact M|exact S|apply P].
Qed.
(** Outside the fields in [F] the paths of the difference are open. *)
Lemma diff_open F A B acts a b i : NoDup acts -> match_on F A -> match_on F B -> denotes A acts a -> denotes B acts b -> 0 <= i < NB ->
  (forall s, In s layout -> F (sl_name s) -> ~ sl_off s <= i < sl_off s + sl_bits s) ->
  forall w t, In (w, t) (cudd_to_wcs (addApply addDiffTagged a b)) -> open_at i w.
Proof.
  intros N MA MB DA DB Hi Hs w t H.
  assert (W : add_wf 0 (addApply addDiffTagged a b)).
  { destruct DA as (f & (Wa & _) & _), DB as (g & (Wb & _) & _). apply addApply_wf; auto. apply tagged_op_wf. }
  assert (Hp : open_at i WC_FULLWC) by (split; rewrite FULL_testbit; lia).
  eapply (paths_open _ i Hi WC_FULLWC 0 W); eauto; [lia|]. apply (untested _ _ 0 W). intros p v. replace (NB - 1 - (NB - 1 - i)) with i by lia.
  assert (Sf : same_fields F (upd p i v) p).
  { intros s j Hin Hf Hj. unfold field_bit. apply upd_ne. intros E. apply (Hs s Hin Hf). lia. }
  assert (Ea := denotes_fields F A acts a _ _ N MA DA Sf). assert (Eb := denotes_fields F B acts b _ _ N MB DB Sf).
  rewrite !(addApply_denote _ z_tagged tagged_sound tagged_const). now rewrite Ea, Eb.
Qed.
Lemma diff_paths A B acts a b : NoDup acts -> denotes A acts a -> denotes B acts b ->
  forall w t, In (w, t) (cudd_to_wcs (addApply addDiffTagged a b)) -> wc_ok w /\ padding_open w.
Proof.
  intros N DA DB w t H.
  assert (W : add_wf 0 (addApply addDiffTagged a b)).
  { destruct DA as (f & (Wa & _) & _), DB as (g & (Wb & _) & _). apply addApply_wf; auto. apply tagged_op_wf. }
  split; [eapply (proj1 (cudd_to_wcs_partition _ W)); eauto|]. intros k Hk.
  assert (EN : extra_padding < NB) by (rewrite extra_padding_val, NB_val; lia).
  assert (O : open_at (k / 2) w).
  { assert (Q : 0 <= k / 2 < extra_padding) by (split; [apply Z.div_pos; lia|apply Z.div_lt_upper_bound; lia]).
    eapply (diff_open (fun _ => True) A B acts a b); eauto; try (intros r it _ _; exact Logic.I); [lia|].
    intros s Hin _ X. destruct (slot_range s Hin) as (R1 & _ & _). lia. }
  destruct O as [O1 O2]. assert (R := Z.div_mod k 2 ltac:(lia)). assert (R2 := Z.mod_pos_bound k 2 ltac:(lia)).
  assert (C : k mod 2 = 0 \/ k mod 2 = 1) by lia. destruct C as [C|C]; rewrite C in R; rewrite R.
  - rewrite Z.add_0_r. exact O1.
  - exact O2.
Qed.

(** ** What per_output_actions leaves for a port *)
Definition single (a : action) : Prop := fst a <> "GROUP" /\ plain_act a = true.
Definition entry1 (kv : Z * alist) : Prop := Forall single (al_iter (snd kv)) /\ ports (al_iter (snd kv)) = [fst kv].
Lemma al_ok_perm l xs : al_ok l xs -> Permutation xs (al_iter l).
Proof. intros H. apply ateq_perm, al_ok_iter, H. Qed.
Lemma ports_perm l r : Permutation l r -> Permutation (ports l) (ports r).
Proof. apply Permutation_flat_map. Qed.
Lemma ports_app l r : ports (l ++ r) = ports l ++ ports r.
Proof. apply flat_map_app. Qed.
Lemma po_set_forall {V} (P : Z * V -> Prop) d k v : Forall P d -> P (k, v) -> Forall P (po_set d k v).
Proof.
  intros H Q. induction H as [|[k' v'] d Hd H IH]; cbn [po_set]; [constructor; auto|]. destruct (k <? k'); [constructor; auto|].
  destruct (k =? k'); constructor; auto.
Qed.
Lemma po_update_forall {V} (P : Z * V -> Prop) e : forall d, Forall P d -> Forall P e -> Forall P (po_update d e).
Proof.
  unfold po_update. induction e as [|[k v] e IH]; intros d Hd He; cbn [fold_left fst snd]; auto. inversion He; subst. apply IH; auto. now apply po_set_forall.
Qed.
Lemma entry_made cur h xs k v : al_ok cur h -> Forall single h -> ports h = [] -> Forall single xs -> ports xs = [k] ->
  al_extend cur xs = Ok v -> entry1 (k, v).
Proof.
  intros Hc Sh Ph Sx Px E. assert (P := al_ok_perm _ _ (al_extend_ok _ _ _ _ Hc E)). split; cbn [fst snd].
  - eapply Permutation_Forall; [exact P|]. now apply Forall_app.
  - apply Permutation_length_1_inv. eapply Permutation_trans; [|apply ports_perm, P]. rewrite ports_app, Ph, Px. reflexivity.
Qed.
Definition entries_val (v : aval) : Prop := forall g, wf_act ("GROUP", v) -> po_list_val v = Ok g -> Forall entry1 g.
Lemma po_list_entries b : Forall (fun a => entries_val (snd a)) b -> Forall wf_act b ->
  forall h cur res d cur', al_ok cur h -> Forall single h -> ports h = [] -> Forall entry1 res -> po_list b res cur = Ok (d, cur') -> Forall entry1 d.
Proof.
  induction b as [|a b IH]; intros Hg Hw h cur res d cur' Hc Sh Ph Hr E; cbn [po_list] in E; [now injection E as <- <-|].
  inversion Hg as [|? ? Ga Hg']; subst. inversion Hw as [|? ? Wa Hw']; subst.
  destruct (String.eqb_spec (fst a) "OUTPUT") as [Eo|No].
  - destruct a as [n v]. cbn [fst snd] in *. subst n. destruct v as [|port| |]; try discriminate. apply rbind_ok in E as (out & Eout & E).
    refine (IH Hg' Hw' h cur _ d cur' Hc Sh Ph _ E). apply po_set_forall; auto.
    eapply (entry_made cur h [("OUTPUT", VInt port)]); eauto; [constructor; [split; [discriminate|reflexivity]|constructor]|].
    unfold al_extend. cbn [rfold]. rewrite Eout. reflexivity.
  - destruct (String.eqb_spec (fst a) "GROUP") as [Eg|Ng].
    + destruct a as [n v]. cbn [fst snd] in *. subst n. apply rbind_ok in E as (g & Eg & E). apply rbind_ok in E as (res1 & Er & E).
      assert (Fg := Ga g Wa Eg). refine (IH Hg' Hw' h cur res1 d cur' Hc Sh Ph _ E). clear - Fg Er Hr Hc Sh Ph.
      revert res Er Hr. induction Fg as [|[k v] g [S1 P1] Fg IH]; intros res Er Hr; cbn [rfold] in Er; [now injection Er as <-|].
      apply rbind_ok in Er as (r1 & E1 & Er). apply rbind_ok in E1 as (x & Ex & E1). injection E1 as <-. cbn [fst snd] in *.
      refine (IH _ Er _). apply po_set_forall; auto. unfold al_add, al_copy in Ex. eapply entry_made; eauto.
    + apply rbind_ok in E as (cur1 & Ec & E). assert (Hc1 := al_append_ok _ _ _ _ Hc Ec).
      assert (Sa : single a) by (inversion Wa as [n v N P|]; subst; [split; auto|elim Ng; reflexivity]).
      assert (Pz : ports [a] = []).
      { unfold ports. cbn [flat_map]. rewrite app_nil_r. destruct a as [n v]. cbn [fst snd] in *.
        assert (Em : emits n = false) by (destruct (emits n) eqn:Em; auto; apply emits_names in Em as [?|?]; contradiction).
        unfold emits in Em. destruct v; cbn [ports_val]; auto; destruct (kind n); auto; discriminate. }
      refine (IH Hg' Hw' (h ++ [a]) cur1 res d cur' Hc1 _ _ Hr E); [apply Forall_app; split; auto|]. now rewrite ports_app, Ph, Pz.
Qed.
Lemma entries_all v : entries_val v.
Proof.
  induction v as [|n|f x|t bs IH] using aval_ind'; intros g Hw E; try discriminate.
  rewrite po_val_group in E. inversion Hw as [? ? N _|? ? Ht Hb]; subst; [contradiction|]. clear Hw Ht.
  assert (G : forall acc g, Forall entry1 acc -> rfold bucket_step bs acc = Ok g -> Forall entry1 g); [|eapply G; [constructor|exact E]].
  clear E g. induction IH as [|b bs Hbv Hbs IHbs]; intros acc g Fa E; cbn [rfold] in E; [now injection E as <-|].
  apply rbind_ok in E as (acc1 & E1 & E). unfold bucket_step in E1. apply rbind_ok in E1 as ([d c] & Ed & E1). injection E1 as <-.
  eapply IHbs; [|apply po_update_forall; [exact Fa|]|exact E]; [intros b' a Hb' Ha; apply (Hb b' a); auto; now right|].
  eapply (po_list_entries b Hbv) with (h := []); [| | | | |exact Ed]; [|apply al_empty_ok|constructor|reflexivity|constructor].
  apply Forall_forall. intros a Ha. apply (Hb b a); auto. now left.
Qed.
(** An entry of the port dict *)
Definition port_list (kL : Z * list action) : Prop := Forall single (snd kL) /\ NoDup (ports (snd kL)) /\ forall k, In k (ports (snd kL)) -> k = fst kL.
Lemma sublist_ports l r : sublist l r -> sublist (ports l) (ports r).
Proof.
  assert (A : forall x (a b : list Z), sublist a b -> sublist (x ++ a) (x ++ b)) by (intros x a b H; induction x; cbn [app]; auto; now constructor).
  assert (B : forall x (a b : list Z), sublist a b -> sublist a (x ++ b)) by (intros x a b H; induction x; cbn [app]; auto; now constructor).
  induction 1 as [r|x l r H IH|x l r H IH]; [constructor| |]; unfold ports; cbn [flat_map]; [apply B, IH|apply A, IH].
Qed.
Lemma sublist_single (l : list Z) k : sublist l [k] -> NoDup l /\ forall x, In x l -> x = k.
Proof.
  intros H. inversion H as [|? ? ? H1|? ? ? H1]; subst.
  - split; [constructor|intros x []].
  - inversion H1; subst. split; [constructor|intros x []].
  - inversion H1; subst. split; [constructor; [intros []|constructor]|]. intros x [<-|[]]. reflexivity.
Qed.
Lemma per_output_ports l d : Forall wf_act (al_iter l) -> per_output_actions l = Ok d -> Forall port_list d.
Proof.
  intros Hw E. unfold per_output_actions, per_output_actions_pt in E.
  apply rbind_ok in E as ([d0 pt] & E & E0). cbn [fst] in E0. injection E0 as ->.
  apply rbind_ok in E as ([d1 cur] & E1 & E). apply rbind_ok in E as (d2 & E2 & E). apply rbind_ok in E as (pp & _ & E). injection E as -> _.
  assert (F : Forall entry1 d1).
  { refine (po_list_entries (al_iter l) _ Hw [] _ _ d1 cur al_empty_ok (Forall_nil _) eq_refl (Forall_nil _) E1).
    apply Forall_forall. intros a _. apply entries_all. }
  clear E1 Hw. revert d E2. induction F as [|[k v] d1 [S1 P1] F IH]; intros d E; cbn [po_clean] in E; [injection E as <-; constructor|].
  apply rbind_ok in E as (v' & Ev & E). apply rbind_ok in E as (t' & Et & E). injection E as <-. constructor; [|apply IH, Et].
  unfold remove_redundant in Ev. apply rbind_ok in Ev as (xs & Ex & Ev). cbn [fst snd] in *.
  assert (Sx := remove_redundant_sub _ _ Ex). assert (Pv := al_ok_perm _ _ (al_of_ok _ _ Ev)). assert (Q := sublist_ports _ _ Sx). rewrite P1 in Q.
  destruct (sublist_single _ _ Q) as [N1 N2]. split; [|split]; cbn [fst snd].
  - eapply Permutation_Forall; [exact Pv|]. apply Forall_forall. intros a Ha. rewrite Forall_forall in S1. apply S1. eapply sublist_in; eauto.
  - eapply Permutation_NoDup; [apply ports_perm, Pv|exact N1].
  - intros x Hx. apply N2. eapply Permutation_in; [apply Permutation_sym, ports_perm, Pv|exact Hx].
Qed.
Lemma single_wf a : single a -> wf_act a.
Proof. destruct a as [n v]. intros [H1 H2]. now constructor. Qed.

(** ** Fields matched exactly *)
Lemma bits_eq v w n : 0 <= v < 2 ^ n -> 0 <= w < 2 ^ n -> (forall j, 0 <= j < n -> Z.testbit v j = Z.testbit w j) -> v = w.
Proof.
  intros Hv Hw H. destruct (Z.lt_ge_cases n 0) as [N|N]; [rewrite Z.pow_neg_r in Hv by lia; lia|].
  apply Z.bits_inj'. intros j Hj. destruct (Z.lt_ge_cases j n); [apply H; lia|].
  rewrite <- (Z.mod_small v (2 ^ n)), <- (Z.mod_small w (2 ^ n)), !Z.mod_pow2_bits_high by lia. reflexivity.
Qed.
Lemma noop_set p q f v : carries p q -> item_canonical (f, (v, None)) -> item_accepts (f, (v, None)) p -> same_pkt (set_field f v q) q.
Proof.
  intros C (s & Hs & En & Hv) H. cbn [fst snd] in En, Hv. subst f.
  assert (X : value_in q (sl_name s) = None \/ value_in q (sl_name s) = Some v).
  { destruct (value_in q (sl_name s)) as [w|] eqn:E; auto. right. f_equal. destruct (C s w Hs E) as [Hw Hb].
    apply (bits_eq w v (sl_bits s)); auto. intros j Hj. rewrite <- (Hb j Hj). apply (H s Hs eq_refl j Hj). reflexivity. }
  clear - X. unfold value_in in X. unfold set_field. destruct q as [[fd fs ft fi fp fv fm] inn fl tt qq]. cbn [p_top p_inner p_flat p_ttl p_queue f_dst f_src f_type f_isid f_ipcp f_vlans f_mpls] in X.
  destruct (which (sl_name s)) as [| | | | | | | | |g]; unfold same_pkt; cbn.
  1-3: (destruct X as [X|[= ->]]; [discriminate X|auto]).
  1-2: (destruct fv as [|[a b c] fv]; cbn in *; [auto|]; destruct X as [X|[= ->]]; [discriminate X|auto]).
  1-3: (destruct fm as [|[a b c d] fm]; cbn in *; [auto|]; destruct X as [X|[= ->]]; [discriminate X|auto]).
  - destruct inn; cbn in *; [auto 6|]. destruct X as [X|[= ->]]; [discriminate X|auto 6].
  - destruct X as [X|[= X]]; [discriminate X|]. repeat split; auto. intros f. destruct (String.eqb_spec f g) as [->|]; auto.
Qed.
Definition exact_set (its : list (string * (Z * option Z))) (a : action) : Prop :=
  exists f v, a = ("SET_FIELD", VSet f v) /\ In (f, (v, None)) its.
Lemma matched_ok m sf : matched_fields m = Ok sf -> exists S0, al_ok sf S0 /\ Forall (exact_set (items_view (m_items m))) S0.
Proof.
  unfold matched_fields, items_view. intros E.
  assert (G : forall its l S0 (all : list (string * (Z * option Z * Z))), (forall x, In x its -> In x all) -> al_ok l S0 ->
    Forall (exact_set (map (fun kv => let '(k, (v, m, _)) := kv in (k, (v, m))) all)) S0 ->
    rfold (fun l (it : string * (Z * option Z * Z)) => match snd it with (v, None, _) => al_append l ("SET_FIELD", VSet (fst it) v) | _ => Ok l end) its l = Ok sf ->
    exists S0, al_ok sf S0 /\ Forall (exact_set (map (fun kv => let '(k, (v, m, _)) := kv in (k, (v, m))) all)) S0).
  2:{ refine (G _ al_empty [] (m_items m) (fun x H => H) al_empty_ok (Forall_nil _) E). }
  clear. induction its as [|[f [[v mk] i]] its IH]; intros l S0 all Hi Ho Hs E; cbn [rfold] in E.
  - injection E as <-. exists S0. auto.
  - apply rbind_ok in E as (l1 & E1 & E). cbn [fst snd] in E1. destruct mk as [mk|].
    + injection E1 as <-. eapply (IH l S0 all); auto. intros x Hx. apply Hi. now right.
    + eapply (IH l1 _ all); [intros x Hx; apply Hi; now right|eapply al_append_ok; eauto| |exact E]. apply Forall_app. split; auto.
      constructor; [|constructor]. exists f, v. split; [reflexivity|]. apply in_map_iff. exists (f, (v, None, i)). split; [reflexivity|]. apply Hi. now left.
Qed.
Section Sound.
  Context (pick : list (list action) -> nat).
  Lemma sets_noop its p q : carries p q -> (forall it, In it its -> item_canonical it) -> match_accepts its p ->
    forall S0, Forall (exact_set its) S0 -> same_pkt (run_pkt S0 q) q.
  Proof.
    intros C K H S0 F. induction F as [|a S0 (f & v & -> & Hin) F IH]; cbn [run_pkt]; [apply same_pkt_refl|].
    assert (N := noop_set p q f v C (K _ Hin) (H _ Hin)). change (rewrite_pkt ("SET_FIELD", VSet f v) q) with (set_field f v q).
    eapply same_pkt_trans; [apply (run_cong pick S0 _ _ N)|exact IH].
  Qed.
  Lemma sets_silent its S0 q : Forall (exact_set its) S0 -> run_out pick S0 q = [].
  Proof. intros F. revert q. induction F as [|a S0 (f & v & -> & Hin) F IH]; intros q; cbn [SpecExec.run_out]; [reflexivity|]. rewrite IH. reflexivity. Qed.
  Lemma sets_ports its S0 : Forall (exact_set its) S0 -> ports S0 = [] /\ Forall wf_act S0.
  Proof.
    induction 1 as [|a S0 (f & v & -> & Hin) F [IH1 IH2]]; [split; [reflexivity|constructor]|]. split; [exact IH1|]. constructor; auto. now constructor.
  Qed.
  Lemma prefix_outs its p q S0 L : carries p q -> (forall it, In it its -> item_canonical it) -> match_accepts its p ->
    Forall (exact_set its) S0 -> same_outs (run_out pick (S0 ++ L) q) (run_out pick L q).
  Proof.
    intros C K H F. rewrite run_out_app, (sets_silent its S0 q F). cbn [app].
    destruct (run_cong pick L _ _ (sets_noop its p q C K H S0 F)) as [_ X]. exists (run_out pick L (run_pkt S0 q)). split; auto.
  Qed.
  Lemma port_same its p q sf S0 k dl dr L R : carries p q -> (forall it, In it its -> item_canonical it) -> match_accepts its p ->
    al_ok sf S0 -> Forall (exact_set its) S0 -> port_list (k, L) -> port_list (k, R) -> po_get dl k = Some L -> po_get dr k = Some R ->
    same_on_port sf dl dr k = Ok true -> same_outs (run_out pick L q) (run_out pick R q).
  Proof.
    intros C K H Ho F (SL & NL & _) (SR & NR & _) EL ER E. unfold same_on_port in E. rewrite EL, ER in E.
    apply rbind_ok in E as (nl & Enl & E). apply rbind_ok in E as (nr & Enr & E). apply rbind_ok in E as (pl & Epl & E). apply rbind_ok in E as (pr & Epr & E).
    destruct (po_eq_dec pl pr) as [->|]; [|discriminate E]. cbn [fst snd] in *. destruct (sets_ports _ _ F) as [P0 W0].
    unfold al_copy in Enl, Enr.
    assert (WL : Forall wf_act (S0 ++ L)) by (apply Forall_app; split; auto; eapply Forall_impl; [apply single_wf|auto]).
    assert (WR : Forall wf_act (S0 ++ R)) by (apply Forall_app; split; auto; eapply Forall_impl; [apply single_wf|auto]).
    eapply same_outs_trans; [apply same_outs_sym, (prefix_outs its p q S0 L C K H F)|]. eapply same_outs_trans; [|apply (prefix_outs its p q S0 R C K H F)].
    eapply (per_output_teq_eq pick (S0 ++ L) (S0 ++ R) nl nr pr pr); auto; try (rewrite ports_app, P0; auto); try reflexivity.
    - apply al_ok_iter, (al_extend_ok _ _ _ _ Ho Enl).
    - apply al_ok_iter, (al_extend_ok _ _ _ _ Ho Enr).
  Qed.
End Sound.
Lemma po_get_in {V} (d : list (Z * V)) k v : NoDup (keys d) -> In (k, v) d -> po_get d k = Some v.
Proof.
  unfold po_get. induction d as [|[k' v'] d IH]; intros N H; [destruct H|]; destruct H as [E|H]; cbn [find fst option_map].
  - injection E as -> ->. rewrite Z.eqb_refl. reflexivity.
  - inversion N as [|? ? N1 N2]; subst. destruct (Z.eqb_spec k' k) as [->|]; [|auto]. elim N1. apply (in_map fst) in H. exact H.
Qed.
Lemma same_on_ports_in sf dl dr ks : same_on_ports sf dl dr ks = Ok true -> forall k, In k ks -> same_on_port sf dl dr k = Ok true.
Proof.
  induction ks as [|x ks IH]; intros E k H; [destruct H|]. cbn [same_on_ports] in E. apply rbind_ok in E as (b & Eb & E). destruct b; [|discriminate E].
  destruct H as [->|H]; auto.
Qed.
Lemma path_same pick kord p q m dl dr : (forall ks k, In k ks -> In k (kord ks)) -> carries p q ->
  (forall it, In it (items_view (m_items m)) -> item_canonical it) -> match_accepts (items_view (m_items m)) p ->
  Forall port_list dl -> Forall port_list dr -> NoDup (keys dl) -> NoDup (keys dr) -> lazy_path kord m dl dr = Ok true ->
  same_outs (sem_po pick dl q) (sem_po pick dr q).
Proof.
  intros Ko C K H Fl Fr Nl Nr E. unfold lazy_path in E. destruct (list_eq_dec _ _ _) as [Ek|]; [|discriminate E].
  apply rbind_ok in E as (sf & Esf & E). destruct (matched_ok m sf Esf) as (S0 & Ho & F).
  assert (P : forall k, In k (keys dl) -> same_on_port sf dl dr k = Ok true).
  { destruct (orig_order sf); [discriminate E|]. intros k Hk. eapply same_on_ports_in; [exact E|]. apply Ko, Hk. }
  assert (Q : forall k L R, In (k, L) dl -> In (k, R) dr -> same_outs (run_out pick L q) (run_out pick R q)).
  { intros k L R HL HR. rewrite Forall_forall in Fl, Fr.
    eapply (port_same pick _ p q sf S0 k dl dr L R C K H Ho F); auto using po_get_in. apply P. apply (in_map fst) in HL. exact HL. }
  clear - Ek Q. revert dr Ek Q. induction dl as [|[k L] dl IH]; intros [|[k' R] dr] Ek Q; try discriminate Ek; [apply same_outs_refl|].
  cbn [map fst] in Ek. injection Ek as <- Ek. unfold sem_po. cbn [flat_map snd]. apply same_outs_app; [apply (Q k); now left|].
  apply IH; auto. intros k' L' R' HL HR. apply (Q k'); now right.
Qed.
Lemma paths_in kord acts paths : forall r, reg_ok r -> (forall w t, In (w, t) paths -> wc_ok w /\ padding_open w) -> lazy_paths kord r acts paths = Ok true ->
  forall w tl tr p, In (w, (tl, tr)) paths -> accepts w p -> exists dl dr m,
  term_to_action acts tl = Ok (Some (FAct dl)) /\ term_to_action acts tr = Ok (Some (FAct dr)) /\
  (forall it, In it (items_view (m_items m)) -> item_canonical it) /\ match_accepts (items_view (m_items m)) p /\ lazy_path kord m dl dr = Ok true.
Proof.
  induction paths as [|[wc [tl0 tr0]] paths IH]; intros r Hr Hp E w tl tr p Hin A; [destruct Hin|]. cbn [lazy_paths] in E.
  apply rbind_ok in E as (lt & Elt & E). apply rbind_ok in E as (rt & Ert & E). apply rbind_ok in E as (rm & Erm & E).
  apply rbind_ok in E as (dl & Edl & E). apply rbind_ok in E as (dr & Edr & E). apply rbind_ok in E as (b & Eb & E). destruct b; [|discriminate E].
  destruct (Hp wc (tl0, tr0) (or_introl eq_refl)) as [Wo Po].
  destruct (from_wildcard_ok r wc Hr Wo Po) as (r' & m & Em & Hr' & _ & _ & _ & Ew & K). rewrite Em in Erm. injection Erm as <-. cbn [fst snd] in *.
  destruct Hin as [[= -> -> ->]|Hin].
  - exists dl, dr, m. destruct lt as [[|]|]; try discriminate Edl. injection Edl as ->. destruct rt as [[|]|]; try discriminate Edr. injection Edr as ->.
    repeat split; auto. destruct (wildcard_of_match (items_view (m_items m))) as (w' & Ew' & _ & _ & Aw & _). rewrite Ew in Ew'. injection Ew' as <-. now apply Aw.
  - eapply IH; eauto. intros w' t' H'. eapply Hp. right. exact H'.
Qed.

(** ** Soundness *)
Lemma tta_bound (acts : list tkey) t o : term_to_action acts t = Ok o -> 0 <= t <= Z.of_nat (List.length acts).
Proof.
  unfold term_to_action. destruct (Z.eqb_spec t 0) as [->|N]; [lia|]. destruct (Z.ltb_spec t 0); [discriminate|].
  destruct (nth_error acts (Z.to_nat (t - 1))) eqn:E; [|discriminate]. intros _.
  assert (X : (Z.to_nat (t - 1) < List.length acts)%nat) by (apply nth_error_Some; congruence). lia.
Qed.
Lemma denotes_small rules acts b : Z.of_nat (List.length acts) < 2 ^ 26 -> denotes rules acts b -> ids_small b.
Proof. intros L (f & (_ & D) & _) p. assert (X := tta_bound _ _ _ (D p)). lia. Qed.
Definition rule_runs (r : rule) (xs : list action) : Prop :=
  SpecEager.built r /\ SpecEager.runs_actions r xs /\ Forall wf_act xs /\ NoDup (ports xs).
Lemma dict_runs pick r d xs : rule_actions r = Ok d -> rule_runs r xs ->
  Forall port_list d /\ NoDup (keys d) /\ forall q, same_outs (sem_po pick d q) (run_out pick xs q).
Proof.
  intros E ((xs0 & ws0 & B1 & B2) & R & W & N). unfold rule_actions in E. destruct (full_actions (inst (rcore r))) as [la|] eqn:LA; [|discriminate E]. cbn [rbind] in E.
  assert (T := EagerSem.runs_teq r xs la (SingleTableProofs.inst_wf_of _ _ _ B1 B2) R LA).
  destruct (per_output_teq pick xs la d W N T E) as [K S]. split; [|split; auto].
  eapply per_output_ports; [|exact E]. eapply Permutation_Forall; [apply (ateq_perm _ _ T)|exact W].
Qed.
Lemma lazy_sound kord r A B acts a b : (forall ks k, In k ks -> In k (kord ks)) -> reg_ok r -> NoDup acts -> Z.of_nat (List.length acts) < 2 ^ 26 ->
  denotes A acts a -> denotes B acts b -> check_equal_lazy kord r acts a b = Ok true ->
  forall p, (first_match A p None /\ first_match B p None) \/
  (exists rA rB, first_match A p (Some rA) /\ first_match B p (Some rB) /\
     forall pick xs ys q, carries p q -> rule_runs rA xs -> rule_runs rB ys -> same_outs (run_out pick xs q) (run_out pick ys q)).
Proof.
  intros Ko Hr N L DA DB E p. assert (Ia := denotes_small _ _ _ L DA). assert (Ib := denotes_small _ _ _ L DB).
  assert (Hp := diff_paths A B acts a b N DA DB). destruct DA as (f & (Wa & Fa) & Pa), DB as (g & (Wb & Fb) & Pb).
  destruct (difftagged_spec a b p Ia Ib) as [_ D2].
  assert (Wd : add_wf 0 (addApply addDiffTagged a b)) by (apply addApply_wf; auto; apply tagged_op_wf).
  destruct (Z.eq_dec (adenote a p) (adenote b p)) as [Eq|Ne].
  - assert (X := Fa p). rewrite Eq, Fb in X. injection X as X.
    assert (Y : g p = f p) by (destruct (g p), (f p); cbn in X; congruence). clear X.
    destruct (Pa p) as [[H1 H2]|(rA & d & H1 & R1 & H2)], (Pb p) as [[H3 H4]|(rB & d' & H3 & R2 & H4)]; try congruence; [left; auto|].
    right. exists rA, rB. split; [auto|]. split; [auto|]. intros pick xs ys q C RA RB. assert (d' = d) by congruence. subst d'.
    destruct (dict_runs pick rA d xs R1 RA) as (_ & _ & S1). destruct (dict_runs pick rB d ys R2 RB) as (_ & _ & S2).
    eapply same_outs_trans; [apply same_outs_sym, S1|apply S2].
  - destruct (D2 Ne) as [Nz Dc].
    destruct (proj1 (proj2 (proj2 (cudd_to_wcs_partition _ Wd)) p _) (conj Nz Dc)) as (w & Hin & Acc).
    destruct (paths_in kord acts _ r Hr Hp E w _ _ p Hin Acc) as (dl & dr & m & Tl & Tr & K & M & Lp).
    rewrite Fa in Tl. rewrite Fb in Tr. injection Tl as Tl. injection Tr as Tr.
    destruct (Pa p) as [[H1 H2]|(rA & d & H1 & R1 & H2)]; rewrite H2 in Tl; [discriminate Tl|]. injection Tl as ->.
    destruct (Pb p) as [[H3 H4]|(rB & d' & H3 & R2 & H4)]; rewrite H4 in Tr; [discriminate Tr|]. injection Tr as ->.
    right. exists rA, rB. split; [auto|]. split; [auto|]. intros pick xs ys q C RA RB.
    destruct (dict_runs pick rA dl xs R1 RA) as (F1 & N1 & S1). destruct (dict_runs pick rB dr ys R2 RB) as (F2 & N2 & S2).
    eapply same_outs_trans; [apply same_outs_sym, S1|]. eapply same_outs_trans; [|apply S2].
    eapply path_same; eauto.
Qed.
Lemma naive_denotes SHIFT reg rules acts acts' b : 0 < SHIFT -> SHIFT mod 2 = 0 -> rules_ok reg rules -> NoDup acts ->
  normalise_naive SHIFT None acts rules = Ok (acts', b) -> (exists ext, acts' = acts ++ ext) /\ NoDup acts' /\ denotes rules acts' b.
Proof.
  intros Hs He H N E.
  assert (A : forall r, In r rules -> is_ok (rule_actions r) = true).
  { intros r Hin. destruct (rule_actions r) as [d|e] eqn:Er; [reflexivity|]. assert (X := naive_err_actions SHIFT rules acts r e Hin Er). rewrite E in X. discriminate X. }
  destruct (plain_entries rules reg H A) as (es & Ee & W & _ & Q).
  destruct (naive_sem SHIFT Hs He None _ _ _ _ _ Ee W N E) as (X & N' & S'). split; [exact X|]. split; [auto|]. exists (first_entry es). auto.
Qed.
Lemma denotes_ext rules acts ext b : denotes rules acts b -> denotes rules (acts ++ ext) b.
Proof. intros (f & S & P). exists f. split; [now apply NormaliseProofs.sem_ext|exact P]. Qed.

(** ** Termination without an exception, for rules made of SET_FIELD and OUTPUT *)
Definition simple (a : action) : Prop :=
  (exists f v, a = ("SET_FIELD", VSet f v) /\ In f (map fst field_deps)) \/ (exists k, a = ("OUTPUT", VInt k)).
Lemma known_set_all : forallb (fun f => known ("SET_FIELD", VSet f 0)) (map fst field_deps) = true.
Proof. vm_compute. reflexivity. Qed.
Lemma simple_known a : simple a -> known a = true.
Proof.
  intros [(f & v & -> & H)|(k & ->)]; [|reflexivity]. pose proof known_set_all as K. rewrite forallb_forall in K. apply (K f H).
Qed.
Lemma simple_compat a b : simple a -> simple b -> compat a b.
Proof.
  intros Ha Hb. split; [now apply simple_known|]. split; [now apply simple_known|].
  unfold comparable, act_cmp. destruct Ha as [(f & v & -> & _)|(k & ->)], Hb as [(g & w & -> & _)|(k' & ->)]; cbn; try discriminate.
  destruct (String.compare f g); discriminate.
Qed.
Definition simple_entry (kv : Z * alist) : Prop := exists xs, al_ok (snd kv) xs /\ Forall simple xs.
Lemma simple_append l xs a : al_ok l xs -> Forall simple xs -> simple a -> exists l', al_append l a = Ok l' /\ al_ok l' (xs ++ [a]) /\ Forall simple (xs ++ [a]).
Proof.
  intros H F Sa. destruct (al_append_total l xs a H) as (l' & E).
  { eapply Forall_impl; [|exact F]. intros b Hb. now apply simple_compat. }
  exists l'. split; [auto|]. split; [eapply al_append_ok; eauto|]. apply Forall_app. auto.
Qed.
Lemma simple_extend l xs ys : al_ok l xs -> Forall simple xs -> Forall simple ys -> exists l', al_extend l ys = Ok l' /\ al_ok l' (xs ++ ys) /\ Forall simple (xs ++ ys).
Proof.
  intros H F G. assert (FG : Forall simple (xs ++ ys)) by (apply Forall_app; auto).
  destruct (al_extend_total ys l xs H) as (l' & E).
  { rewrite Forall_forall in FG, G. intros a b Ha Hb. apply simple_compat; auto. }
  exists l'. split; [auto|]. split; [eapply al_extend_ok; eauto|auto].
Qed.
Lemma po_list_simple b : Forall simple b -> forall h cur res, al_ok cur h -> Forall simple h -> Forall simple_entry res ->
  exists d cur' h', po_list b res cur = Ok (d, cur') /\ Forall simple_entry d /\ al_ok cur' h' /\ Forall simple h'.
Proof.
  induction 1 as [|a b Ha Hb IH]; intros h cur res Hc Hh Hr; cbn [po_list]; [exists res, cur, h; auto|].
  destruct (simple_append cur h a Hc Hh Ha) as (out & Eo & Ho & Fo). destruct Ha as [(f & v & -> & _)|(k & ->)]; cbn [fst snd].
  - change (String.eqb "SET_FIELD" "OUTPUT") with false. change (String.eqb "SET_FIELD" "GROUP") with false. cbv iota.
    rewrite Eo. cbn [rbind]. eapply IH; eauto.
  - change (String.eqb "OUTPUT" "OUTPUT") with true. cbv iota. rewrite Eo. cbn [rbind]. eapply IH; eauto.
    apply po_set_forall; auto. exists (h ++ [("OUTPUT", VInt k)]). auto.
Qed.
Lemma remove_redundant_simple l xs : al_ok l xs -> Forall simple xs -> exists l', remove_redundant l = Ok l'.
Proof.
  intros H F. assert (P : Forall simple (al_iter l)) by (eapply Permutation_Forall; [apply al_ok_perm, H|exact F]).
  unfold remove_redundant. destruct (remove_redundant_total (al_iter l)) as (ys & E); [eapply Forall_impl; [apply simple_known|exact P]|].
  rewrite E. cbn [rbind]. apply al_of_total. assert (S := remove_redundant_sub _ _ E). rewrite Forall_forall in P.
  intros a b Ha Hb. apply simple_compat; apply P; eapply sublist_in; eauto.
Qed.
Lemma per_output_simple l xs : al_ok l xs -> Forall simple xs -> exists d, per_output_actions l = Ok d.
Proof.
  intros H F. assert (P : Forall simple (al_iter l)) by (eapply Permutation_Forall; [apply al_ok_perm, H|exact F]).
  unfold per_output_actions, per_output_actions_pt.
  destruct (po_list_simple (al_iter l) P [] al_empty [] al_empty_ok (Forall_nil _) (Forall_nil _)) as (d & cur & h & E & Fd & Hc & Hh).
  rewrite E. cbn [rbind]. clear E.
  assert (X : exists d', po_clean d = Ok d').
  { clear - Fd. induction Fd as [|[k v] d (xs & Hv & Hx) Fd (d' & IH)]; cbn [po_clean]; [eauto|]. cbn [snd] in Hv.
    destruct (remove_redundant_simple v xs Hv Hx) as (v' & ->). cbn [rbind]. rewrite IH. cbn [rbind]. eauto. }
  destruct X as (d' & ->). cbn [rbind]. destruct (remove_redundant_simple cur h Hc Hh) as (c' & ->). cbn [rbind fst]. eauto.
Qed.
Definition simple_dict (d : po_value) : Prop := Forall (fun kv => Forall simple (snd kv)) d.
Lemma po_get_keys {V} (d : list (Z * V)) k : In k (keys d) -> exists v, po_get d k = Some v /\ In (k, v) d.
Proof.
  unfold po_get. induction d as [|[k' v'] d IH]; intros H; [destruct H|]. cbn [find fst option_map].
  destruct (Z.eqb_spec k' k) as [->|N]; [exists v'; cbn; auto|]. destruct H as [H|H]; [elim N; exact H|].
  destruct (IH H) as (v & E & Hv). exists v. split; [exact E|now right].
Qed.
Lemma matched_total m : (forall f v, In (f, (v, None)) (items_view (m_items m)) -> In f (map fst field_deps)) -> exists sf S0,
  matched_fields m = Ok sf /\ al_ok sf S0 /\ Forall simple S0.
Proof.
  unfold matched_fields, items_view. intros H.
  assert (G : forall its l S0, (forall f v, In (f, (v, None)) (map (fun kv => let '(k, (v, m, _)) := kv in (k, (v, m))) its) -> In f (map fst field_deps)) ->
    al_ok l S0 -> Forall simple S0 -> exists sf S1,
    rfold (fun l (it : string * (Z * option Z * Z)) => match snd it with (v, None, _) => al_append l ("SET_FIELD", VSet (fst it) v) | _ => Ok l end) its l = Ok sf /\
    al_ok sf S1 /\ Forall simple S1).
  2:{ exact (G _ al_empty [] H al_empty_ok (Forall_nil _)). }
  clear. induction its as [|[f [[v mk] i]] its IH]; intros l S0 H Hl F; cbn [rfold].
  - exists l, S0. auto.
  - assert (H' : forall f v, In (f, (v, None)) (map (fun kv : string * (Z * option Z * Z) => let '(k, (v, m, _)) := kv in (k, (v, m))) its) -> In f (map fst field_deps)) by (intros f' v' X; eapply H; right; exact X).
    cbn [fst snd]. destruct mk as [mk|]; [cbn [rbind]; eapply IH; eauto|].
    destruct (simple_append l S0 ("SET_FIELD", VSet f v) Hl F) as (l1 & E1 & O1 & F1); [left; exists f, v; split; [reflexivity|]; eapply H; left; reflexivity|].
    rewrite E1. cbn [rbind]. eapply IH; eauto.
Qed.
Lemma lazy_path_total kord m dl dr : (forall ks k, In k (kord ks) -> In k ks) ->
  (forall f v, In (f, (v, None)) (items_view (m_items m)) -> In f (map fst field_deps)) -> simple_dict dl -> simple_dict dr ->
  exists v, lazy_path kord m dl dr = Ok v.
Proof.
  intros Ko H Sl Sr. unfold lazy_path. destruct (list_eq_dec _ _ _) as [Ek|]; [|eauto].
  destruct (matched_total m H) as (sf & S0 & E & O & F). rewrite E. cbn [rbind]. destruct (orig_order sf); [eauto|].
  assert (G : forall ks, (forall k, In k ks -> In k (keys dl)) -> exists v, same_on_ports sf dl dr ks = Ok v).
  2:{ apply G. intros k Hk. apply Ko, Hk. }
  induction ks as [|k ks IH]; intros Hk; cbn [same_on_ports]; [eauto|].
  assert (Hl : In k (keys dl)) by (apply Hk; now left). assert (Hr : In k (keys dr)) by (unfold keys; rewrite <- Ek; exact Hl).
  destruct (po_get_keys dl k Hl) as (L & EL & IL). destruct (po_get_keys dr k Hr) as (R & ER & IR). unfold same_on_port. rewrite EL, ER.
  unfold simple_dict in *. rewrite Forall_forall in Sl, Sr. specialize (Sl _ IL). specialize (Sr _ IR). cbn [snd] in Sl, Sr. unfold al_copy.
  destruct (simple_extend sf S0 L O F Sl) as (nl & -> & Onl & Fnl). destruct (simple_extend sf S0 R O F Sr) as (nr & -> & Onr & Fnr). cbn [rbind].
  destruct (per_output_simple nl _ Onl Fnl) as (pl & ->). destruct (per_output_simple nr _ Onr Fnr) as (pr & ->). cbn [rbind].
  destruct (po_eq_dec pl pr); [|eauto]. apply IH. intros k' Hk'. apply Hk. now right.
Qed.
Lemma per_output_simple_dict l xs d : al_ok l xs -> Forall simple xs -> per_output_actions l = Ok d -> simple_dict d.
Proof.
  intros H F E. assert (P : Forall simple (al_iter l)) by (eapply Permutation_Forall; [apply al_ok_perm, H|exact F]).
  unfold per_output_actions, per_output_actions_pt in E.
  destruct (po_list_simple (al_iter l) P [] al_empty [] al_empty_ok (Forall_nil _) (Forall_nil _)) as (d1 & cur & h & E1 & Fd & Hc & Hh).
  rewrite E1 in E. cbn [rbind] in E. apply rbind_ok in E as ([d0 pt] & E & E0). cbn [fst] in E0. injection E0 as ->.
  apply rbind_ok in E as (d2 & E2 & E). apply rbind_ok in E as (pp & _ & E). injection E as -> _. clear - Fd E2.
  revert d E2. induction Fd as [|[k v] d1 (xs & Hv & Hx) Fd IH]; intros d E; cbn [po_clean] in E; [injection E as <-; constructor|].
  apply rbind_ok in E as (v' & Ev & E). apply rbind_ok in E as (t' & Et & E). injection E as <-. constructor; [|apply IH, Et]. cbn [snd] in *.
  unfold remove_redundant in Ev. apply rbind_ok in Ev as (ys & Ey & Ev). eapply Permutation_Forall; [apply al_ok_perm, (al_of_ok _ _ Ev)|].
  assert (S := remove_redundant_sub _ _ Ey). assert (Q : Forall simple (al_iter v)) by (eapply Permutation_Forall; [apply al_ok_perm, Hv|exact Hx]).
  rewrite Forall_forall in *. intros a Ha. apply Q. eapply sublist_in; eauto.
Qed.
Definition outer_field (f : string) : Prop := In f (map fst field_deps).
Lemma wc_witness w : wc_ok w -> exists p, accepts w p.
Proof.
  intros [_ Z0]. exists (fun i => Z.testbit w (2 * i + 1)). intros i Hi. destruct (Z.testbit w (2 * i + 1)) eqn:E; [exact E|].
  rewrite Z.add_0_r. destruct (Z0 i Hi); congruence.
Qed.
Lemma exact_outer A B acts a b w t r r' m : NoDup acts -> match_on outer_field A -> match_on outer_field B -> denotes A acts a -> denotes B acts b -> reg_ok r ->
  In (w, t) (cudd_to_wcs (addApply addDiffTagged a b)) -> flow_wildcard_to_flowmatches r w = Ok (r', m) ->
  reg_ok r' /\ forall f v, In (f, (v, None)) (items_view (m_items m)) -> outer_field f.
Proof.
  intros N MA MB DA DB Hr Hin E. destruct (diff_paths A B acts a b N DA DB w t Hin) as [Wo Po].
  destruct (from_wildcard_ok r w Hr Wo Po) as (r1 & m1 & Em & Hr' & _ & _ & _ & Ew & K). rewrite Em in E. injection E as -> ->. split; [exact Hr'|].
  intros f v Hf. destruct (in_dec string_dec f (map fst field_deps)) as [|Nf]; [assumption|exfalso].
  destruct (K _ Hf) as (s & Hs & En & _). cbn [fst] in En. destruct (slot_range s Hs) as (S1 & S2 & S3).
  assert (Q : 0 <= sl_off s < NB) by (rewrite extra_padding_val in S1; lia).
  assert (O : open_at (sl_off s) w).
  { apply (diff_open outer_field A B acts a b (sl_off s) N MA MB DA DB Q) with (t := t); [|exact Hin]. intros s' Hs' Fs' X.
    destruct (slot_range s' Hs') as (_ & S2' & _). destruct (slot_disjoint s s' Hs Hs') as [<-|D]; [apply Nf; rewrite En; exact Fs'|lia]. }
  destruct (wc_witness w Wo) as (p & Ap).
  assert (A2 : forall x, accepts w (upd p (sl_off s) x)).
  { intros x i Hi. destruct (Z.eq_dec i (sl_off s)) as [->|Ni]; [|rewrite upd_ne by auto; apply Ap, Hi].
    rewrite upd_at. destruct O as [O1 O2]. destruct x; [exact O2|rewrite Z.add_0_r; exact O1]. }
  destruct (wildcard_of_match (items_view (m_items m))) as (w' & Ew' & _ & _ & Aw & _). rewrite Ew in Ew'. injection Ew' as <-.
  assert (V : forall x, x = Z.testbit v 0).
  { intros x. assert (X := proj1 (Aw _) (A2 x) _ Hf s Hs (eq_sym En) 0 ltac:(lia) eq_refl). cbn [fst snd] in X. rewrite <- X.
    unfold field_bit. rewrite Z.add_0_r. symmetry. apply upd_at. }
  assert (V1 := V true). assert (V2 := V false). congruence.
Qed.
Lemma lazy_total kord r A B acts a b : (forall ks k, In k (kord ks) -> In k ks) -> reg_ok r -> NoDup acts -> Z.of_nat (List.length acts) < 2 ^ 26 ->
  denotes A acts a -> denotes B acts b -> match_on outer_field A -> match_on outer_field B ->
  (forall p, ~ first_match A p None) -> (forall p, ~ first_match B p None) ->
  (forall x d, In x A \/ In x B -> rule_actions x = Ok d -> simple_dict d) ->
  exists v, check_equal_lazy kord r acts a b = Ok v.
Proof.
  intros Ko Hr N L DA DB MA MB TA TB SD. assert (Ia := denotes_small _ _ _ L DA). assert (Ib := denotes_small _ _ _ L DB). unfold check_equal_lazy.
  assert (G : forall paths r, reg_ok r -> (forall x, In x paths -> In x (cudd_to_wcs (addApply addDiffTagged a b))) -> exists v, lazy_paths kord r acts paths = Ok v).
  2:{ apply G; auto. }
  clear r Hr. induction paths as [|[w [tl tr]] paths IH]; intros r Hr Hp; cbn [lazy_paths]; [eauto|].
  assert (Hin := Hp _ (or_introl eq_refl)). destruct (diff_paths A B acts a b N DA DB w _ Hin) as [Wo Po].
  destruct (from_wildcard_ok r w Hr Wo Po) as (r1 & m & Em & _). destruct (exact_outer A B acts a b w _ r r1 m N MA MB DA DB Hr Hin Em) as [Hr1 Ou].
  destruct DA as (f & (Wa & Fa) & Pa), DB as (g & (Wb & Fb) & Pb).
  assert (Wd : add_wf 0 (addApply addDiffTagged a b)) by (apply addApply_wf; auto; apply tagged_op_wf).
  destruct (wc_witness w Wo) as (p & Ap).
  destruct (proj2 (proj2 (proj2 (cudd_to_wcs_partition _ Wd)) p (tl, tr)) (ex_intro _ w (conj Hin Ap))) as [Nz Dc].
  destruct (difftagged_spec a b p Ia Ib) as [D1 D2].
  destruct (Z.eq_dec (adenote a p) (adenote b p)) as [Eq|Ne]; [elim Nz; auto|]. destruct (D2 Ne) as [_ Dc']. rewrite Dc in Dc'. injection Dc' as -> ->.
  destruct (Pa p) as [[H1 H2]|(rA & dl & H1 & R1 & H2)]; [elim (TA p H1)|]. destruct (Pb p) as [[H3 H4]|(rB & dr & H3 & R2 & H4)]; [elim (TB p H3)|].
  rewrite Fa, Fb, H2, H4, Em. cbn [rbind option_map as_dict fst snd].
  destruct (first_match_in _ _ _ H1) as [I1 _]. destruct (first_match_in _ _ _ H3) as [I2 _].
  assert (Sl := SD rA dl (or_introl I1) R1). assert (Sr := SD rB dr (or_intror I2) R2).
  destruct (lazy_path_total kord m dl dr Ko Ou Sl Sr) as (v & ->). cbn [rbind]. destruct v; [|eauto].
  apply IH; auto. intros x Hx. apply Hp. now right.
Qed.
