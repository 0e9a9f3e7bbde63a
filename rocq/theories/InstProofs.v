(** Merging instructions: action lists and action sets (C33, C36). *)
From Verif Require Import SpecSet ActionProofs ExecProofs ActionSetProofs.
Local Open Scope string_scope.
Local Open Scope list_scope.
Local Open Scope Z_scope.

(** ** Winners of a sequence of writes *)
Definition weq (xs ys : list action) : Prop := forall a, winner xs a <-> winner ys a.
Lemma weq_refl xs : weq xs xs. Proof. intros a. reflexivity. Qed.
Lemma weq_sym xs ys : weq xs ys -> weq ys xs. Proof. intros H a. symmetry. apply H. Qed.
Lemma weq_trans xs ys zs : weq xs ys -> weq ys zs -> weq xs zs. Proof. intros H1 H2 a. rewrite (H1 a). apply H2. Qed.

Lemma latest_app p xs ys : latest p (xs ++ ys) = match latest p ys with Some a => Some a | None => latest p xs end.
Proof.
  unfold latest. rewrite rev_app_distr. induction (rev ys) as [|y l IH]; cbn [app find]; [reflexivity|]. destruct (p y); auto.
Qed.
Lemma latest_none_iff p xs : latest p xs = None <-> existsb p xs = false.
Proof.
  split.
  - intros H. destruct (existsb p xs) eqn:E; [|reflexivity]. apply existsb_exists in E as (x & Hx & Px).
    apply latest_none with (a := x) in H; [congruence|auto].
  - intros H. destruct (latest p xs) as [a|] eqn:E; [|reflexivity]. apply latest_some in E as [H1 H2].
    assert (existsb p xs = true) by (apply existsb_exists; eauto). congruence.
Qed.
Definition has_group (xs : list action) : Prop := exists a, winner xs a /\ fst a = "GROUP".
Lemma fwd_cases a : slot_of a = SFwd -> fst a = "OUTPUT" \/ fst a = "GROUP". Proof. apply slot_fwd. Qed.
Lemma has_group_iff xs : has_group xs <-> existsb (is_name "GROUP") xs = true.
Proof.
  split.
  - intros (a & W & E). apply existsb_exists. exists a. split; [now apply winner_in|]. unfold is_name. rewrite E. reflexivity.
  - intros H. destruct (latest (is_name "GROUP") xs) as [a|] eqn:E.
    + assert (E' := E). apply latest_some in E' as [_ E']. apply String.eqb_eq in E'. exists a. split; auto.
      unfold winner. rewrite (proj2 (slot_fwd a)) by auto. now rewrite H.
    + apply latest_none_iff in E. congruence.
Qed.
Definition has_slot (xs : list action) (s : aslot) : Prop := exists a, winner xs a /\ slot_of a = s.
Lemma has_slot_iff xs s : has_slot xs s <-> exists a, In a xs /\ slot_of a = s.
Proof.
  split.
  - intros (a & W & E). exists a. split; auto. now apply winner_in.
  - intros (a & Ha & E). destruct (winner_exists xs a Ha) as (b & W & Eb). exists b. split; auto. congruence.
Qed.
Lemma winner_slot xs a : slot_of a <> SFwd ->
  (winner xs a <-> latest (fun b => slot_eqb (slot_of b) (slot_of a)) xs = Some a).
Proof. intros H. unfold winner. destruct (slot_of a); try reflexivity. congruence. Qed.
Lemma slotb_none xs s : existsb (fun b => slot_eqb (slot_of b) s) xs = false <-> ~ has_slot xs s.
Proof.
  rewrite has_slot_iff. split.
  - intros H (a & Ha & E). assert (existsb (fun b => slot_eqb (slot_of b) s) xs = true) by (apply existsb_exists; exists a; split; auto; now apply slot_eqb_eq). congruence.
  - intros H. destruct (existsb _ xs) eqn:E; [|reflexivity]. apply existsb_exists in E as (a & Ha & E). apply slot_eqb_eq in E. exfalso. eauto.
Qed.
Lemma fwd_none xs : ~ has_slot xs SFwd <-> existsb (is_name "GROUP") xs = false /\ existsb (is_name "OUTPUT") xs = false.
Proof.
  rewrite has_slot_iff. split.
  - intros H. split; (destruct (existsb _ xs) eqn:E; [|reflexivity]; apply existsb_exists in E as (a & Ha & E); apply String.eqb_eq in E;
      exfalso; apply H; exists a; split; auto; apply slot_fwd; auto).
  - intros [H1 H2] (a & Ha & E). apply slot_fwd in E as [E|E].
    + assert (existsb (is_name "OUTPUT") xs = true) by (apply existsb_exists; exists a; split; auto; unfold is_name; now rewrite E). congruence.
    + assert (existsb (is_name "GROUP") xs = true) by (apply existsb_exists; exists a; split; auto; unfold is_name; now rewrite E). congruence.
Qed.

Lemma winner_app xs ys a : winner (xs ++ ys) a <->
  (winner ys a /\ (slot_of a = SFwd -> fst a = "GROUP" \/ ~ has_group xs)) \/
  (winner xs a /\ (~ has_slot ys (slot_of a) \/ (fst a = "GROUP" /\ ~ has_group ys))).
Proof.
  destruct (slot_eqb (slot_of a) SFwd) eqn:Es.
  - apply slot_eqb_eq in Es. unfold winner. rewrite Es, existsb_app, !latest_app, fwd_none, !has_group_iff.
    destruct (existsb (is_name "GROUP") ys) eqn:Gy.
    + rewrite orb_true_r. assert (L : latest (is_name "GROUP") ys <> None) by (rewrite latest_none_iff; congruence).
      destruct (latest (is_name "GROUP") ys) as [g|] eqn:Eg; [|congruence]. apply latest_some in Eg as [_ Eg]. apply String.eqb_eq in Eg.
      split.
      * intros [= <-]. left. split; auto.
      * intros [[H _]|[_ [[H _]|[_ H]]]]; [auto|discriminate|]. exfalso. now apply H.
    + rewrite orb_false_r. rewrite (proj2 (latest_none_iff _ ys) Gy).
      destruct (existsb (is_name "GROUP") xs) eqn:Gx.
      * split.
        -- intros H. right. split; auto. right. apply latest_some in H as [_ H]. apply String.eqb_eq in H. split; [auto|discriminate].
        -- intros [[H1 H2]|[H _]]; auto. apply latest_some in H1 as [_ H1]. apply String.eqb_eq in H1.
           destruct (H2 eq_refl) as [H|H]; [congruence|]. exfalso. now apply H.
      * destruct (latest (is_name "OUTPUT") ys) as [o|] eqn:Eo.
        -- split.
           ++ intros [= <-]. left. split; [auto|]. intros _. right. discriminate.
           ++ intros [[H _]|[H [[_ Q]|[Q _]]]]; [auto| |].
              ** apply latest_none_iff in Q. congruence.
              ** apply latest_some in H as [_ H]. apply String.eqb_eq in H. congruence.
        -- apply latest_none_iff in Eo. split.
           ++ intros H. right. split; auto.
           ++ intros [[H _]|[H _]]; [discriminate|auto].
  - assert (Hf : slot_of a <> SFwd) by (intros E; rewrite E in Es; discriminate Es).
    rewrite !winner_slot by auto. rewrite latest_app, <- slotb_none.
    destruct (latest (fun b => slot_eqb (slot_of b) (slot_of a)) ys) as [o|] eqn:Eo.
    + split.
      * intros [= <-]. left. split; [auto|]. intros E. contradiction.
      * intros [[H _]|[_ [H|[H _]]]]; [auto| |].
        -- apply latest_none_iff in H. congruence.
        -- exfalso. apply Hf. apply slot_fwd. auto.
    + apply latest_none_iff in Eo. split.
      * intros H. right. auto.
      * intros [[H _]|[H _]]; [discriminate|auto].
Qed.
Lemma weq_app xs xs' ys ys' : weq xs xs' -> weq ys ys' -> weq (xs ++ ys) (xs' ++ ys').
Proof.
  intros Hx Hy a. rewrite !winner_app, (Hx a), (Hy a). unfold has_group, has_slot.
  assert (Gx : (exists b, winner xs b /\ fst b = "GROUP") <-> (exists b, winner xs' b /\ fst b = "GROUP")) by (split; intros (b & W & E); exists b; split; auto; now apply Hx).
  assert (Gy : (exists b, winner ys b /\ fst b = "GROUP") <-> (exists b, winner ys' b /\ fst b = "GROUP")) by (split; intros (b & W & E); exists b; split; auto; now apply Hy).
  assert (Sy : (exists b, winner ys b /\ slot_of b = slot_of a) <-> (exists b, winner ys' b /\ slot_of b = slot_of a)) by (split; intros (b & W & E); exists b; split; auto; now apply Hy).
  rewrite Gx, Gy, Sy. reflexivity.
Qed.
(** a sequence with one action per place is its own set *)
Lemma nodup_slot_unique l a b : NoDup (map slot_of l) -> In a l -> In b l -> slot_of a = slot_of b -> a = b.
Proof.
  induction l as [|x l IH]; cbn [map In]; [contradiction|]. intros ND Ha Hb E. inversion ND as [|? ? Hx NDl]; subst.
  destruct Ha as [<-|Ha], Hb as [<-|Hb]; auto.
  - exfalso. apply Hx. rewrite E. now apply in_map.
  - exfalso. apply Hx. rewrite <- E. now apply in_map.
Qed.
Lemma winner_nodup l a : NoDup (map slot_of l) -> (winner l a <-> In a l).
Proof.
  intros ND. split; [apply winner_in|]. intros Ha. destruct (winner_exists l a Ha) as (b & W & E).
  assert (b = a) by (eapply nodup_slot_unique; eauto; now apply winner_in). now subst b.
Qed.

Lemma set_inv_weq s xs ys : set_inv s xs -> weq xs ys -> set_inv s ys.
Proof. intros (H1 & H2 & H3 & H4 & H5) H. split; [auto|]. split; [auto|]. split; [auto|]. split; [|auto]. intros a. rewrite H4. apply H. Qed.
Lemma set_inv_iter s xs : set_inv s xs -> weq (al_iter s) xs.
Proof.
  intros (H1 & H2 & H3 & H4 & H5) a. rewrite winner_nodup.
  - rewrite <- H4. assert (P := al_ok_iter_perm _ _ H1). split; intros H; [now apply Permutation_sym in P; apply (Permutation_in a P)|now apply (Permutation_in a P)].
  - apply (Permutation_NoDup (l := map slot_of (orig_order s))); auto. apply Permutation_map, al_ok_iter_perm, H1.
Qed.
Lemma set_inv_orig s xs : set_inv s xs -> weq (orig_order s) xs.
Proof. intros (H1 & H2 & H3 & H4 & H5) a. rewrite winner_nodup; auto. Qed.

(** ** A set is determined by its winners *)
Lemma index_str_range n l : forall k i, index_str n l k = Some i -> (k <= i)%nat /\ nth_error l (i - k) = Some n.
Proof.
  induction l as [|m l IH]; intros k i H; cbn [index_str] in H; [discriminate|].
  destruct (String.eqb_spec m n) as [E|E].
  - injection H as <-. subst m. split; [lia|]. now rewrite Nat.sub_diag.
  - destruct (IH _ _ H) as [H1 H2]. split; [lia|]. replace (i - k)%nat with (S (i - S k)) by lia. exact H2.
Qed.
Lemma set_key_name a b i : set_key a = Some i -> set_key b = Some i -> fst a = fst b.
Proof. unfold set_key. intros Ha Hb. apply index_str_range in Ha as [_ Ha], Hb as [_ Hb]. congruence. Qed.
Lemma key_le_both a b : key_le a b -> key_le b a -> fst a = fst b.
Proof.
  unfold key_le. destruct (set_key a) as [i|] eqn:Ea; [|contradiction]. destruct (set_key b) as [j|] eqn:Eb; [|contradiction].
  intros H1 H2. assert (j = i) by lia. subst j. eapply set_key_name; eauto.
Qed.
Definition types_free (s t : atype) : bool :=
  match s, t with
  | TSet f, TSet g => String.eqb f g || (match depends (sample s) (sample t) with Ok false => true | _ => false end)
  | _, _ => true end.
Lemma types_free_all : forallb (fun s => forallb (types_free s) known_types) known_types = true.
Proof. vm_compute. reflexivity. Qed.
Lemma same_name_ind a b : known a = true -> known b = true -> fst a = fst b -> slot_of a <> slot_of b -> depends a b = Ok false.
Proof.
  destruct a as [n v], b as [m w]. cbn [fst]. intros Ha Hb E Hs. subst m. unfold slot_of in Hs. cbn [fst snd] in Hs.
  destruct (String.eqb_spec n "SET_FIELD") as [->|N]; [|congruence].
  assert (Ka := Ha). assert (Kb := Hb). apply known_wf in Ha as [Ha _], Hb as [Hb _].
  destruct (Ha eq_refl) as (f & c & E1), (Hb eq_refl) as (g & d & E2). cbn in E1, E2. subst v w.
  assert (T : forall h c0, known ("SET_FIELD", VSet h c0) = true -> In (TSet h) known_types).
  { intros h c0 K. apply known_type_in. unfold known in K. cbn [to_type fst snd String.eqb rbind] in K.
    change (to_type ("SET_FIELD", VSet h c0)) with (Ok (TSet h)) in K. cbn [rbind] in K. destruct (action_dependancies (TSet h)); [eauto|discriminate]. }
  assert (F := types_free_all). rewrite forallb_forall in F. specialize (F _ (T _ _ Ka)). rewrite forallb_forall in F. specialize (F _ (T _ _ Kb)).
  unfold types_free in F. destruct (String.eqb_spec f g) as [->|Nf]; [exfalso; now apply Hs|]. cbn [orb] in F.
  change (depends ("SET_FIELD", VSet f c) ("SET_FIELD", VSet g d)) with (depends (sample (TSet f)) (sample (TSet g))).
  destruct (depends (sample (TSet f)) (sample (TSet g))) as [[|]|]; congruence.
Qed.
Lemma ordered_teq o : forall o', ordered o -> ordered o' -> NoDup (map slot_of o) -> NoDup (map slot_of o') ->
  Forall (fun a => known a = true) o -> Permutation o o' -> teq o o'.
Proof.
  induction o as [|a o IH]; intros o' Ho Ho' Hn Hn' Hk P.
  - apply Permutation_nil in P. subst. apply te_refl.
  - assert (Ha : In a o') by (apply (Permutation_in a P); now left).
    apply in_split in Ha as (l1 & l2 & ->). apply Permutation_cons_app_inv in P.
    inversion Ho as [|? ? Ho1 Ho2]; subst. inversion Hn as [|? ? Hn1 Hn2]; subst. inversion Hk as [|? ? Hk1 Hk2]; subst.
    apply te_trans with (a :: l1 ++ l2).
    + rewrite teq_dpb. apply (teq_head dpb [a]). rewrite <- teq_dpb. apply IH; auto.
      * clear - Ho'. unfold ordered in *. induction l1 as [|x l1 IHl]; cbn [app] in *; [now inversion Ho'|]. inversion Ho' as [|? ? H1 H2]; subst.
        constructor; [auto|]. apply Forall_app in H2 as [H2 H3]. inversion H3; subst. apply Forall_app. auto.
      * rewrite map_app in *. cbn [map] in Hn'. now apply NoDup_remove_1 in Hn'.
    + assert (F : Forall (fun x => act_ind a x) l1).
      { apply Forall_forall. intros x Hx. assert (Hxo : In x o) by (apply (Permutation_in x (Permutation_sym P)); apply in_or_app; auto).
        assert (K1 : key_le a x) by (rewrite Forall_forall in Ho2; auto).
        assert (K2 : key_le x a).
        { clear - Ho' Hx. unfold ordered in *. induction l1 as [|y l1 IHl]; [destruct Hx|]. cbn [app] in Ho'. inversion Ho' as [|? ? H1 H2]; subst.
          destruct Hx as [->|Hx]; [|auto]. rewrite Forall_forall in H2. apply H2. apply in_or_app. right. now left. }
        apply same_name_ind; auto.
        - rewrite Forall_forall in Hk2. auto.
        - now apply key_le_both.
        - intros Q. apply Hn1. rewrite Q. now apply in_map. }
      change (a :: l1 ++ l2) with ((a :: l1) ++ l2). replace (l1 ++ a :: l2) with ((l1 ++ [a]) ++ l2) by (now rewrite <- app_assoc).
      rewrite teq_dpb. apply teq_tail. apply (teq_move dpb). eapply Forall_impl; [|exact F]. intros x Hx.
      now apply dpb_false.
Qed.
Lemma nodup_slots_nodup l : NoDup (map slot_of l) -> NoDup l. Proof. apply nodup_map. Qed.
Lemma set_inv_perm s s' xs ys : set_inv s xs -> set_inv s' ys -> weq xs ys -> Permutation (orig_order s) (orig_order s').
Proof.
  intros (_ & _ & N1 & W1 & _) (_ & _ & N2 & W2 & _) H. apply NoDup_Permutation; [now apply nodup_map in N1|now apply nodup_map in N2|].
  intros a. rewrite W1, W2. apply H.
Qed.
Lemma set_inv_teq s s' xs ys : set_inv s xs -> set_inv s' ys -> weq xs ys -> teq (orig_order s) (orig_order s').
Proof.
  intros H1 H2 H. assert (P := set_inv_perm _ _ _ _ H1 H2 H).
  destruct H1 as (_ & O1 & N1 & _ & K1), H2 as (_ & O2 & N2 & _ & _). destruct K1 as [K1|K1].
  - destruct (orig_order s) as [|a [|b l]] eqn:E; [apply Permutation_nil in P|apply Permutation_length_1_inv in P|cbn in K1; lia]; rewrite P; apply te_refl.
  - apply ordered_teq; auto.
Qed.
Lemma set_inv_eqb s s' xs ys : set_inv s xs -> set_inv s' ys -> weq xs ys -> al_eqb s s' = true.
Proof.
  intros H1 H2 H. assert (T := set_inv_teq _ _ _ _ H1 H2 H). destruct H1 as (A1 & _), H2 as (A2 & _). now apply (al_eqb_iff _ _ _ _ A1 A2).
Qed.
Lemma set_list_teq ws o o' : Forall (fun a => known a = true) ws -> set_list ws o -> set_list ws o' -> teq o o'.
Proof.
  intros Hk (N1 & W1 & O1) (N2 & W2 & O2). apply ordered_teq; auto.
  - apply Forall_forall. intros a Ha. apply W1, winner_in in Ha. rewrite Forall_forall in Hk. auto.
  - apply NoDup_Permutation; [now apply nodup_map in N1|now apply nodup_map in N2|]. intros a. now rewrite W1, W2.
Qed.

(** ** Merging *)
Lemma ateq_app l l' r r' : teq l l' -> teq r r' -> teq (l ++ r) (l' ++ r').
Proof. rewrite !teq_dpb. apply teq_app. Qed.
Lemma al_add_ok a b c xs ys : al_ok a xs -> al_ok b ys -> al_add a b = Ok c -> al_ok c (xs ++ al_iter b) /\ teq (xs ++ ys) (xs ++ al_iter b).
Proof.
  intros Ha Hb H. unfold al_add in H. split; [eapply copy_add_ok; eauto|]. apply ateq_app; [apply te_refl|]. now apply al_ok_iter.
Qed.
Lemma as_add_inv a b c xs ys : set_inv a xs -> set_inv b ys -> as_add a b = Ok c -> set_inv c (xs ++ ys).
Proof.
  intros Ha Hb H. unfold as_add in H. apply (as_extend_inv _ _ _ _ Ha) in H. eapply set_inv_weq; [exact H|].
  apply weq_app; [apply weq_refl|]. now apply set_inv_iter.
Qed.
(** What [i] holds: the actions to apply are those of [xs], the actions to write those left by [ws]. *)
Definition holds (i : instructions) (xs ws : list action) : Prop :=
  (exists o, al_ok (apply_actions i) o /\ teq xs o) /\ set_inv (write_actions i) ws.
Lemma holds_of i xs ws : al_of xs = Ok (apply_actions i) -> as_of ws = Ok (write_actions i) -> holds i xs ws.
Proof. intros H1 H2. split; [exists xs; split; [now apply al_of_ok|apply te_refl]|now apply as_of_inv]. Qed.
Lemma inst_merge_holds a b m xs ws ys vs : holds a xs ws -> holds b ys vs -> inst_merge a b = Ok m ->
  holds m (xs ++ ys) (if clear_actions b then vs else ws ++ vs) /\
  goto_table m = goto_table b /\ clear_actions m = clear_actions a || clear_actions b /\ write_metadata m = None /\ meter m = None.
Proof.
  intros [(oa & Aa & Ta) Wa] [(ob & Ab & Tb) Wb] H. unfold inst_merge in H. apply rbind_ok in H as (w & Hw & H). apply rbind_ok in H as (l & Hl & H).
  injection H as <-. cbn [goto_table clear_actions write_metadata meter]. split; [|auto].
  destruct (al_add_ok _ _ _ _ _ Aa Ab Hl) as [Al Tl]. split; cbn [apply_actions write_actions].
  - exists (oa ++ al_iter (apply_actions b)). split; auto. eapply te_trans; [|exact Tl]. now apply ateq_app.
  - destruct (clear_actions b); [injection Hw as <-; auto|]. eapply as_add_inv; eauto.
Qed.
Lemma holds_eqb a b xs ws ys vs : holds a xs ws -> holds b ys vs -> teq xs ys -> weq ws vs ->
  al_eqb (apply_actions a) (apply_actions b) = true /\ al_eqb (write_actions a) (write_actions b) = true.
Proof.
  intros [(oa & Aa & Ta) Wa] [(ob & Ab & Tb) Wb] T W. split; [|eapply set_inv_eqb; eauto].
  apply (al_eqb_iff _ _ _ _ Aa Ab). eapply te_trans; [apply ateq_sym, Ta|]. now apply te_trans with ys.
Qed.
Lemma opt_eqb_refl o : opt_eqb Z.eqb o o = true. Proof. destruct o; cbn; auto using Z.eqb_refl. Qed.
Lemma inst_merge_assoc a b c xs ws ys vs zs us ab bc l r : holds a xs ws -> holds b ys vs -> holds c zs us ->
  inst_merge a b = Ok ab -> inst_merge ab c = Ok l -> inst_merge b c = Ok bc -> inst_merge a bc = Ok r -> inst_eqb l r = true.
Proof.
  intros Ha Hb Hc H1 H2 H3 H4.
  destruct (inst_merge_holds _ _ _ _ _ _ _ Ha Hb H1) as (Hab & _ & Cab & _).
  destruct (inst_merge_holds _ _ _ _ _ _ _ Hab Hc H2) as (Hl & Gl & Cl & Ml & El).
  destruct (inst_merge_holds _ _ _ _ _ _ _ Hb Hc H3) as (Hbc & Gbc & Cbc & _).
  destruct (inst_merge_holds _ _ _ _ _ _ _ Ha Hbc H4) as (Hr & Gr & Cr & Mr & Er).
  destruct (holds_eqb _ _ _ _ _ _ Hl Hr) as [E1 E2].
  - rewrite app_assoc. apply te_refl.
  - rewrite Cbc. destruct (clear_actions b), (clear_actions c); cbn [orb]; try apply weq_refl. rewrite app_assoc. apply weq_refl.
  - unfold inst_eqb. rewrite E1, E2, Gl, Gr, Gbc, Cl, Cr, Cab, Cbc, Ml, Mr, El, Er, opt_eqb_refl, orb_assoc, Bool.eqb_reflx. reflexivity.
Qed.
