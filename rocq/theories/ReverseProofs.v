(** Proofs about reverse_fields. *)
From Verif Require Import Reverse SpecMisc SpecExec ExecProofs FormatProofs MortonProofs MatchProofs MatchWcProofs ActionProofs MergeProofs SpecNormalise.
From Coq Require Import ZifyBool ZifyNat ZifyN Permutation.
Local Open Scope string_scope.
Local Open Scope list_scope.
Local Open Scope Z_scope.
Local Opaque NB WC_FULLWC layout oxm_fields registry_init.

(** ** Values *)
Lemma mirror_range b : forall v, 0 <= mirror b v < 2 ^ Z.of_nat b.
Proof.
  induction b as [|b IH]; intros v; [cbn; lia|]. cbn [mirror]. rewrite Nat2Z.inj_succ, Z.pow_succ_r by lia. specialize (IH (v / 2)).
  pose proof (Z.mod_pos_bound v 2 ltac:(lia)). nia.
Qed.
Lemma weigh_rev_mirror l : digits_ok 2 l -> weigh 2 (rev l) = mirror (List.length l) (weigh 2 l).
Proof.
  induction l as [|d l IH] using rev_ind; intros D; [reflexivity|]. apply Forall_app in D as [D1 D2]. inversion D2 as [|? ? D3 _]; subst.
  rewrite rev_app_distr, app_length, Nat.add_1_r. cbn [rev app mirror]. rewrite weigh_cons, weigh_snoc, rev_length, IH by auto.
  replace ((weigh 2 l * 2 + d) mod 2) with d by (rewrite Z.add_comm, Z.mod_add, Z.mod_small; lia).
  replace ((weigh 2 l * 2 + d) / 2) with (weigh 2 l) by (rewrite Z.add_comm, Z.div_add, Z.div_small; lia). reflexivity.
Qed.
Lemma mirror_bit b : forall v j, 0 <= j < Z.of_nat b -> Z.testbit (mirror b v) j = Z.testbit v (Z.of_nat b - 1 - j).
Proof.
  induction b as [|b IH]; intros v j J; [lia|]. cbn [mirror]. pose proof (mirror_range b (v / 2)) as R. pose proof (Z.mod_pos_bound v 2 ltac:(lia)).
  rewrite <- lor_shift by lia. rewrite Z.lor_spec, Z.shiftl_spec by lia. rewrite Nat2Z.inj_succ in *. destruct (Z.eq_dec j (Z.of_nat b)) as [->|N].
  - rewrite (testbit_small (mirror b (v / 2)) (Z.of_nat b)) by lia. rewrite orb_false_r, Z.sub_diag.
    replace (Z.succ (Z.of_nat b) - 1 - Z.of_nat b) with 0 by lia. rewrite !Z.bit0_odd. rewrite Zmod_odd. destruct (Z.odd v); reflexivity.
  - rewrite Z.testbit_neg_r by lia. cbn [orb]. rewrite IH by lia. replace (Z.succ (Z.of_nat b) - 1 - j) with (Z.succ (Z.of_nat b - 1 - j)) by lia.
    apply Z.div2_bits. lia.
Qed.

Lemma mirror_0 b : mirror b 0 = 0.
Proof. induction b as [|b IH]; [reflexivity|]. cbn [mirror]. change (0 mod 2) with 0. change (0 / 2) with 0. rewrite IH. lia. Qed.
Lemma mirror_mirror b v : 0 <= v < 2 ^ Z.of_nat b -> mirror b (mirror b v) = v.
Proof.
  intros V. apply Z.bits_inj'. intros j J. pose proof (mirror_range b (mirror b v)). destruct (Z_lt_ge_dec j (Z.of_nat b)) as [L|L].
  - rewrite !mirror_bit by lia. f_equal. lia.
  - rewrite (testbit_small (mirror b (mirror b v)) (Z.of_nat b)), (testbit_small v (Z.of_nat b)) by lia. reflexivity.
Qed.
Lemma py_int_binary l : l <> [] -> digits_ok 2 l -> py_int 2 (map digit_chr l) = Ok (weigh 2 l).
Proof.
  intros N D. pose proof (numeral_digits 2 l ltac:(lia) D N) as H. unfold py_int. rewrite strip_id by (eapply numeral_no_space; eauto).
  destruct (numeral_head _ _ _ H) as [c [t [E [N1 N2]]]]. rewrite E in *. rewrite (proj2 (Z.eqb_neq _ _) N1), (proj2 (Z.eqb_neq _ _) N2).
  assert (R : read_unsigned 2 (c :: t) = Some (weigh 2 l)); [|now rewrite R].
  pose proof (read_digits_numeral _ _ _ H) as RD. destruct t as [|x t]; [exact RD|]. cbn [read_unsigned].
  assert (X : ord x = 48 \/ ord x = 49).
  { destruct l as [|d [|d' l]]; [discriminate E|discriminate E|]. cbn [map] in E. injection E as E1 E2 E3. inversion D as [|? ? _ D']; subst. inversion D' as [|? ? D'' _]; subst.
    assert (d' = 0 \/ d' = 1) as [-> | ->] by lia; [left|right]; vm_compute; reflexivity. }
  assert (E1 : (ord x =? 120) || (ord x =? 88) = false) by lia. assert (E2 : (ord x =? 111) || (ord x =? 79) = false) by lia.
  assert (E3 : (ord x =? 98) || (ord x =? 66) = false) by lia. rewrite E1, E2, E3, !andb_false_l, !andb_false_r. cbn [Z.eqb]. exact RD.
Qed.
Lemma reverse_value_ok b v : 0 < b -> 0 <= v < 2 ^ b -> reverse_value b v = Ok (mirror (Z.to_nat b) v).
Proof.
  intros B V. unfold reverse_value, bin_tail. rewrite (proj2 (Z.ltb_ge v 0)) by lia.
  destruct (zfill_digits 2 (Z.to_nat b) v ltac:(lia) ltac:(lia)) as [l [E1 [E2 [E3 E4]]]]; [rewrite Z2Nat.id by lia; auto|].
  unfold format_num in E1. rewrite (proj2 (Z.ltb_ge v 0)) in E1 by lia. rewrite E1, <- map_rev, py_int_binary.
  - cbn [rbind]. rewrite weigh_rev_mirror, E2, E4 by auto. pose proof (mirror_range (Z.to_nat b) v) as R. rewrite Z2Nat.id in R by lia.
    replace (2 ^ b - 1) with (Z.ones b) by (rewrite Z.ones_equiv; lia). rewrite Z.land_ones, Z.mod_small, Z.eqb_refl by lia. reflexivity.
  - intros Q. apply (f_equal (@List.length Z)) in Q. rewrite rev_length in Q. cbn in Q. lia.
  - apply Forall_rev. exact E3.
Qed.

(** ** Matches *)
Lemma slot_of_in s : In s layout -> slot_of (sl_name s) = Some s.
Proof.
  intros H. unfold slot_of. destruct (find _ layout) as [s'|] eqn:E.
  - apply find_some in E as [E1 E2]. apply String.eqb_eq in E2. f_equal. apply slot_name_inj; auto.
  - apply (find_none _ _ E s) in H. rewrite String.eqb_refl in H. discriminate.
Qed.
Lemma slot_pos s : In s layout -> 0 < sl_bits s. Proof. intros H. apply slot_range in H. lia. Qed.
Definition mirror_item (it : string * (Z * option Z * Z)) : string * (Z * option Z * Z) :=
  let '(k, (v, mk, id)) := it in (k, (mirror_field k v, mk, id)).
Lemma dict_set_mid {V} (a b : dict V) k x y : ~ In k (map fst a) -> dict_set (a ++ (k, x) :: b) k y = a ++ (k, y) :: b.
Proof.
  induction a as [|[k' z] a IH]; cbn [app dict_set map fst In]; intros N; [now rewrite String.eqb_refl|].
  destruct (String.eqb_spec k' k) as [Q|Q]; [tauto|]. rewrite IH; tauto.
Qed.
Lemma map_mirror_keys l : map fst (map mirror_item l) = map fst l.
Proof. induction l as [|[k [[v mk] id]] l IH]; [reflexivity|]. cbn [map mirror_item fst]. now rewrite IH. Qed.
Lemma reverse_item_ok r m it : reg_ok r -> match_ok r m -> plain_item it -> In it (m_items m) ->
  exists m', reverse_item m it r = (r, Ok m') /\ match_ok r m' /\ m_items m' = dict_set (m_items m) (fst it) (snd (mirror_item it)).
Proof.
  intros R M [s [S1 [S2 P]]] J. destruct it as [k [[v mk] id]]. cbn [fst snd] in *. unfold reverse_item. destruct (String.eqb_spec k "VLAN_VID") as [Q|Q].
  - exists m. split; [reflexivity|]. split; [auto|]. unfold mirror_item. cbn [snd]. assert (E0 : mirror_field k v = v) by (unfold mirror_field; rewrite Q; reflexivity). rewrite E0.
    symmetry. destruct M as [ND _]. apply in_split in J as [a [b E]]. rewrite E. apply dict_set_mid.
    rewrite E, map_app in ND. cbn [map fst] in ND. apply NoDup_remove_2 in ND. intros H. apply ND, in_or_app. auto.
  - destruct P as [P|[P1 P2]]; [contradiction|]. rewrite <- S2. destruct (layout_lookup s S1) as [FB _]. rewrite FB.
    unfold sbind at 1. cbn [slift]. unfold sbind at 1. cbn [slift]. rewrite (reverse_value_ok _ _ (slot_pos s S1) P2).
    assert (MK : (match mk with Some k0 => if k0 =? 0 then sret mk else sdo x <- slift (Ok (mirror (Z.to_nat (sl_bits s)) v)); sret (Some x) | None => sret mk end) r = (r, Ok mk)) by (destruct P1 as [-> | ->]; reflexivity).
    unfold sbind at 1. rewrite MK. rewrite S2. unfold s_append.
    assert (RG : oxm_name_to_id r k = (r, id) /\ exists b, dict_get r k = Some (id, b)).
    { destruct M as [_ [M2 _]]. destruct (M2 _ _ _ _ J) as [b B]. split; [|eauto]. unfold oxm_name_to_id. rewrite B. reflexivity. }
    pose proof (match_append_ok r m k (mirror (Z.to_nat (sl_bits s)) v) mk R M) as OK.
    unfold match_append in *. destruct RG as [RG [b RB]]. rewrite RG, RB in *.
    assert (AN : append_norm b (mirror (Z.to_nat (sl_bits s)) v) mk = (mirror (Z.to_nat (sl_bits s)) v, mk)).
    { unfold append_norm. destruct b as [b|]; [|reflexivity]. destruct P1 as [-> | ->]; [reflexivity|]. rewrite orb_true_r. reflexivity. }
    rewrite AN in *. eexists. split; [reflexivity|]. split; [apply OK|]. cbn [m_items]. f_equal. unfold mirror_item, mirror_field. cbn [snd].
    rewrite (proj2 (String.eqb_neq _ _) Q). rewrite <- S2, (slot_of_in s S1). reflexivity.
Qed.
Lemma reverse_items_ok r : reg_ok r -> forall rest done m, match_ok r m -> m_items m = map mirror_item done ++ rest -> Forall plain_item rest ->
  exists m', sfold reverse_item rest m r = (r, Ok m') /\ match_ok r m' /\ m_items m' = map mirror_item (done ++ rest).
Proof.
  intros R. induction rest as [|it rest IH]; intros done m M E P; cbn [sfold].
  - exists m. rewrite app_nil_r in *. auto.
  - inversion P as [|? ? P1 P2]; subst. destruct (reverse_item_ok r m it R M P1) as [m1 [E1 [M1 I1]]]; [rewrite E; apply in_or_app; right; now left|].
    unfold sbind. rewrite E1. assert (I2 : m_items m1 = map mirror_item (done ++ [it]) ++ rest).
    { rewrite I1, E, map_app, <- app_assoc. destruct it as [k [[v mk] id]]. cbn [map app fst snd mirror_item]. apply dict_set_mid.
      destruct M as [ND _]. rewrite E, map_app in ND. cbn [map fst] in ND. apply NoDup_remove_2 in ND. intros H. apply ND, in_or_app. auto. }
    destruct (IH (done ++ [it]) m1 M1 I2 P2) as [m2 [E2 [M2 I3]]]. exists m2. rewrite <- app_assoc in I3. auto.
Qed.
Lemma find_slot_at s i : In s layout -> sl_off s <= i < sl_off s + sl_bits s ->
  find (fun s => (sl_off s <=? i) && (i <? sl_off s + sl_bits s)) layout = Some s.
Proof.
  intros H I0. destruct (find _ layout) as [s'|] eqn:E.
  - apply find_some in E as [E1 E2]. destruct (slot_disjoint s s' H E1) as [Q|Q]; [now subst|lia].
  - apply (find_none _ _ E s) in H. lia.
Qed.
Lemma mirror_packet_bit p s j : In s layout -> 0 <= j < sl_bits s ->
  mirror_packet p (sl_off s + j) = if String.eqb (sl_name s) "VLAN_VID" then p (sl_off s + j) else p (sl_off s + (sl_bits s - 1 - j)).
Proof.
  intros S J. unfold mirror_packet. rewrite (find_slot_at s) by (auto; lia). destruct (String.eqb _ _); [reflexivity|]. f_equal. lia.
Qed.
Lemma mirror_item_accepts it p : plain_item it -> (item_accepts (fst it, fst (snd (mirror_item it))) p <-> item_accepts (fst it, fst (snd it)) (mirror_packet p)).
Proof.
  destruct it as [k [[v mk] id]]. intros [s [S1 [S2 P]]]. cbn [fst snd mirror_item] in *. unfold item_accepts. cbn [fst snd].
  assert (G : forall s' j, In s' layout -> sl_name s' = k -> 0 <= j < sl_bits s' ->
     field_bit (mirror_packet p) s' j = if String.eqb k "VLAN_VID" then field_bit p s' j else field_bit p s' (sl_bits s' - 1 - j)).
  { intros s' j A B C. unfold field_bit. rewrite mirror_packet_bit by auto. rewrite B. reflexivity. }
  assert (U : forall s', In s' layout -> sl_name s' = k -> s' = s) by (intros; apply slot_name_inj; auto; congruence).
  assert (MF : forall j, 0 <= j < sl_bits s -> k <> "VLAN_VID" -> Z.testbit (mirror_field k v) j = Z.testbit v (sl_bits s - 1 - j)).
  { intros j J N. unfold mirror_field. rewrite (proj2 (String.eqb_neq _ _) N), <- S2, (slot_of_in s S1), mirror_bit by lia. f_equal. lia. }
  destruct (String.eqb_spec k "VLAN_VID") as [Q|Q].
  - assert (E : mirror_field k v = v) by (unfold mirror_field; rewrite Q; reflexivity). rewrite E. split; intros H s' A B j C D.
    + rewrite (G s' j A B C). apply (H s' A B j C D).
    + rewrite <- (G s' j A B C). apply (H s' A B j C D).
  - destruct P as [P|[[P1|P1] P2]]; [contradiction| |]; subst mk; split; intros H s' A B j C D; try (rewrite Z.bits_0 in D; discriminate);
      pose proof (U s' A B); subst s'; (assert (J' : 0 <= sl_bits s - 1 - j < sl_bits s) by lia).
    + rewrite (G s j A B C). rewrite (H s A B _ J' eq_refl), MF by auto. f_equal. lia.
    + rewrite MF by auto. rewrite <- (H s A B _ J' eq_refl), (G s _ A B J'). f_equal. lia.
Qed.
Lemma mirror_items_accept items p : Forall plain_item items -> (match_accepts (items_view (map mirror_item items)) p <-> match_accepts (items_view items) (mirror_packet p)).
Proof.
  intros F. unfold match_accepts, items_view. rewrite map_map. split; intros H it J; apply in_map_iff in J as [x [<- X]]; rewrite Forall_forall in F;
    pose proof (mirror_item_accepts x p (F x X)) as A; destruct x as [k [[v mk] id]]; cbn [fst snd mirror_item] in *.
  - apply A. apply H. apply in_map_iff. exists (k, (v, mk, id)). split; [reflexivity|auto].
  - apply A. apply H. apply in_map_iff. exists (k, (v, mk, id)). split; [reflexivity|auto].
Qed.
Lemma mirror_item_plain it : plain_item it -> plain_item (mirror_item it).
Proof.
  destruct it as [k [[v mk] id]]. intros [s [S1 [S2 P]]]. cbn [mirror_item fst snd] in *. exists s. cbn [fst snd]. split; [auto|]. split; [auto|].
  destruct (String.eqb_spec k "VLAN_VID") as [Q|Q]; [left; auto|]. destruct P as [P|[P1 P2]]; [auto|]. right. split; [auto|].
  unfold mirror_field. rewrite (proj2 (String.eqb_neq _ _) Q), <- S2, (slot_of_in s S1). pose proof (mirror_range (Z.to_nat (sl_bits s)) v) as R. pose proof (slot_pos s S1).
  rewrite Z2Nat.id in R by lia. exact R.
Qed.
Lemma mirror_field_twice f v s : In s layout -> sl_name s = f -> (f = "VLAN_VID" \/ 0 <= v < 2 ^ sl_bits s) -> mirror_field f (mirror_field f v) = v.
Proof.
  intros S1 S2 V. unfold mirror_field. destruct (String.eqb_spec f "VLAN_VID") as [Q|Q]; [reflexivity|]. destruct V as [V|V]; [contradiction|].
  rewrite <- S2, (slot_of_in s S1). apply mirror_mirror. pose proof (slot_pos s S1). rewrite Z2Nat.id by lia. auto.
Qed.
Lemma mirror_item_twice it : plain_item it -> mirror_item (mirror_item it) = it.
Proof.
  destruct it as [k [[v mk] id]]. intros [s [S1 [S2 P]]]. cbn [mirror_item fst snd] in *. rewrite (mirror_field_twice k v s); auto. tauto.
Qed.

(** ** Actions *)
Definition mirror_act (a : action) : action :=
  match snd a with VSet f v => if String.eqb (fst a) "SET_FIELD" then (fst a, VSet f (mirror_field f v)) else a | _ => a end.
Lemma reverse_action_ok a : plain_act a -> reverse_action a = Ok (mirror_act a).
Proof.
  intros P. unfold reverse_action, mirror_act. destruct a as [n x]. cbn [fst snd] in *. destruct (String.eqb_spec n "SET_FIELD") as [Q|Q]; [|destruct x; reflexivity].
  destruct (P Q) as [f [v [s [E [S1 [S2 V]]]]]]. cbn [fst snd] in E. subst x. unfold mirror_field. destruct (String.eqb_spec f "VLAN_VID") as [W|W]; [reflexivity|].
  destruct V as [V|V]; [contradiction|]. rewrite <- S2. destruct (layout_lookup s S1) as [FB _]. rewrite FB. cbn [rbind].
  rewrite (reverse_value_ok _ _ (slot_pos s S1) V), (slot_of_in s S1), Q. reflexivity.
Qed.
Lemma mirror_act_type a : to_type (mirror_act a) = to_type a.
Proof. destruct a as [n x]. unfold mirror_act, to_type. cbn [fst snd]. destruct x; try reflexivity. destruct (String.eqb n "SET_FIELD") eqn:E; cbn [fst snd]; rewrite E; reflexivity. Qed.
Lemma mirror_act_name a : fst (mirror_act a) = fst a.
Proof. destruct a as [n x]. unfold mirror_act. cbn [fst snd]. destruct x; try reflexivity. destruct (String.eqb n "SET_FIELD"); reflexivity. Qed.
Lemma mirror_act_depends a b : depends (mirror_act a) (mirror_act b) = depends a b.
Proof. unfold depends. now rewrite !mirror_act_type, !mirror_act_name. Qed.
Lemma mirror_teq xs ys : teq xs ys -> teq (map mirror_act xs) (map mirror_act ys).
Proof.
  induction 1 as [l|l a b r H|l m r H1 IH1 H2 IH2]; [apply te_refl| |eapply te_trans; eauto]. rewrite !map_app. cbn [map]. apply te_swap.
  unfold act_ind in *. now rewrite mirror_act_depends.
Qed.
Lemma mirror_act_compat a b : compat a b -> compat (mirror_act a) (mirror_act b).
Proof.
  intros [A [B C]]. unfold compat, known in *. rewrite !mirror_act_type. split; [auto|]. split; [auto|]. unfold comparable, act_cmp in *. rewrite !mirror_act_name.
  destruct (String.compare (fst a) (fst b)); try discriminate. destruct a as [n x], b as [n' y]. unfold mirror_act. cbn [fst snd] in *.
  destruct x; destruct y; cbn [val_cmp snd] in *; repeat (match goal with |- context [if ?c then _ else _] => destruct c end; cbn [val_cmp snd] in * ); auto; try discriminate.
  all: destruct (String.compare _ _); discriminate.
Qed.
Lemma reverse_actions_ok xs l : al_of xs = Ok l -> Forall plain_act xs -> (forall a b, In a xs -> In b xs -> compat a b) ->
  exists l', reverse_actions l = Ok l' /\ al_ok l' (map mirror_act (al_iter l)) /\ teq (map mirror_act xs) (al_iter l').
Proof.
  intros E P C. pose proof (al_ok_iter _ _ (al_of_ok _ _ E)) as T. pose proof (ateq_perm _ _ T) as PM. unfold reverse_actions.
  rewrite (rall_map_ok reverse_action mirror_act) by (intros x X; apply reverse_action_ok; rewrite Forall_forall in P; apply P; eapply Permutation_in; [apply Permutation_sym; exact PM|auto]).
  cbn [rbind]. destruct (al_of_total (map mirror_act (al_iter l))) as [l' L'].
  { intros a b A B. apply in_map_iff in A as [a' [<- A]]. apply in_map_iff in B as [b' [<- B]]. apply mirror_act_compat. apply C; eapply Permutation_in; try (apply Permutation_sym; exact PM); auto. }
  exists l'. split; [auto|]. split; [now apply al_of_ok|]. eapply te_trans; [apply mirror_teq; exact T|]. apply al_ok_iter. now apply al_of_ok.
Qed.
Lemma mirror_act_twice a : plain_act a -> mirror_act (mirror_act a) = a.
Proof.
  destruct a as [n x]. unfold plain_act, mirror_act. cbn [fst snd]. intros P. destruct (String.eqb_spec n "SET_FIELD") as [Q|Q].
  - destruct (P Q) as [f [v [s [E [S1 [S2 V]]]]]]. subst x. cbn [fst snd]. rewrite Q. cbn [String.eqb Ascii.eqb Bool.eqb]. rewrite (mirror_field_twice f v s); auto.
  - destruct x; cbn [fst snd]; try reflexivity. rewrite (proj2 (String.eqb_neq _ _) Q). reflexivity.
Qed.
Lemma mirror_act_plain a : plain_act a -> plain_act (mirror_act a).
Proof.
  intros P. unfold plain_act in *. rewrite mirror_act_name. intros Q. destruct (P Q) as [f [v [s [E [S1 [S2 V]]]]]]. exists f, (mirror_field f v), s.
  unfold mirror_act. rewrite E, Q. cbn [String.eqb Ascii.eqb Bool.eqb fst snd]. split; [reflexivity|]. split; [auto|]. split; [auto|]. destruct V as [V|V]; [auto|].
  destruct (String.eqb_spec f "VLAN_VID") as [W|W]; [auto|]. right. unfold mirror_field. rewrite (proj2 (String.eqb_neq _ _) W), <- S2, (slot_of_in s S1).
  pose proof (mirror_range (Z.to_nat (sl_bits s)) v) as R. pose proof (slot_pos s S1). rewrite Z2Nat.id in R by lia. exact R.
Qed.

(** ** Execution *)
Ltac pkt_eq := split; [|split; [|split; [|split]]]; cbn [p_top p_inner p_flat p_ttl p_queue]; auto.
Lemma mirror_pkt_same p q : same_pkt p q -> same_pkt (mirror_pkt p) (mirror_pkt q).
Proof. intros [A [B [C [D E]]]]. unfold mirror_pkt. pkt_eq; intros; congruence. Qed.
Lemma mirror_set f v p : same_pkt (set_field f (mirror_field f v) (mirror_pkt p)) (mirror_pkt (set_field f v p)).
Proof.
  unfold set_field, which. repeat (match goal with |- context [if String.eqb f ?c then _ else _] => destruct (String.eqb_spec f c) as [->|] end; cbn [which]);
    try (destruct p as [[d s t i c vl ml] inner fl tt q]; unfold mirror_pkt, with_top, with_type, with_vlans, with_mpls, mirror_frame;
         cbn [p_top p_inner p_flat p_ttl p_queue f_dst f_src f_type f_isid f_ipcp f_vlans f_mpls]; pkt_eq; fail).
  - destruct p as [[d s t i c vl ml] inner fl tt q]; unfold mirror_pkt, with_top, with_vlans, mirror_frame. pkt_eq. destruct vl as [|x vl]; reflexivity.
  - destruct p as [[d s t i c vl ml] inner fl tt q]; unfold mirror_pkt, with_top, with_vlans, mirror_frame. pkt_eq. destruct vl as [|x vl]; reflexivity.
  - destruct p as [[d s t i c vl ml] inner fl tt q]; unfold mirror_pkt, with_top, with_mpls, mirror_frame. pkt_eq. destruct ml as [|x ml]; reflexivity.
  - destruct p as [[d s t i c vl ml] inner fl tt q]; unfold mirror_pkt, with_top, with_mpls, mirror_frame. pkt_eq. destruct ml as [|x ml]; reflexivity.
  - destruct p as [[d s t i c vl ml] inner fl tt q]; unfold mirror_pkt, with_top, with_mpls, mirror_frame. pkt_eq. destruct ml as [|x ml]; reflexivity.
  - destruct p as [[d s t i c vl ml] [|y inner] fl tt q]; unfold mirror_pkt, with_top, mirror_frame; pkt_eq.
  - destruct p as [top inner fl tt q]. unfold mirror_pkt. pkt_eq. intros h. destruct (String.eqb_spec h f) as [->|]; reflexivity.
Qed.
Lemma mirror_field_0 f : mirror_field f 0 = 0.
Proof. unfold mirror_field. destruct (String.eqb f "VLAN_VID"); [reflexivity|]. destruct (slot_of f); [apply mirror_0|reflexivity]. Qed.
Lemma mirror_rewrite a p : plain_act a -> no_type_no_group a -> same_pkt (rewrite_pkt (mirror_act a) (mirror_pkt p)) (mirror_pkt (rewrite_pkt a p)).
Proof.
  intros P N. unfold rewrite_pkt. rewrite mirror_act_name. unfold kind.
  destruct (String.eqb_spec (fst a) "SET_FIELD") as [Q|Q].
  { destruct (P Q) as [f [v [s [E _]]]]. unfold mirror_act. rewrite E, Q. cbn [String.eqb Ascii.eqb Bool.eqb snd]. apply mirror_set. }
  assert (MA : mirror_act a = a) by (unfold mirror_act; destruct (snd a); auto; rewrite (proj2 (String.eqb_neq _ _) Q); auto). rewrite MA.
  unfold no_type_no_group in N. cbn [In] in N.
  repeat (match goal with |- context [if String.eqb (fst a) ?c then _ else _] => destruct (String.eqb_spec (fst a) c) as [W|_]; [try (exfalso; apply N; rewrite W; tauto)|]; cbn iota end);
    clear N P Q MA; try (apply same_pkt_refl); destruct p as [[d s t i c vl ml] inner fl tt q]; unfold mirror_pkt, mirror_frame.
  - unfold push_vlan, with_top, with_vlans. pkt_eq. cbn [f_dst f_src f_type f_isid f_ipcp f_vlans f_mpls]. f_equal. destruct vl as [|x vl]; cbn [map]; unfold mirror_vlan; cbn [v_tpid v_vid v_pcp]; [rewrite mirror_field_0|]; reflexivity.
  - unfold pop_vlan, with_top, with_vlans. pkt_eq. destruct vl; reflexivity.
  - unfold copy_ttl_out, with_top, with_mpls. pkt_eq. destruct ml as [|x [|y ml]]; reflexivity.
  - unfold copy_ttl_in, with_top, with_mpls, with_ttl. destruct ml as [|x [|y ml]]; pkt_eq.
  - unfold with_top, with_mpls. pkt_eq. destruct ml as [|x ml]; reflexivity.
  - unfold with_top, with_mpls. pkt_eq. destruct ml as [|x ml]; reflexivity.
Qed.
Lemma mirror_emit pick a p : plain_act a -> no_type_no_group a -> emit pick (mirror_act a) (mirror_pkt p) = map mirror_out (emit pick a p).
Proof.
  intros P N. unfold emit. rewrite mirror_act_name. destruct a as [n x]. unfold mirror_act. cbn [fst snd] in *. destruct x; try reflexivity.
  - cbn [emit_val snd]. destruct (kind n); reflexivity.
  - destruct (String.eqb n "SET_FIELD"); reflexivity.
  - cbn [emit_val snd]. destruct (kind n) eqn:K; try reflexivity. exfalso. apply N. right; right; right; right; left.
    unfold kind in K. repeat (match goal with H : context [if String.eqb n ?c then _ else _] |- _ => destruct (String.eqb_spec n c); [try discriminate|] end); auto; discriminate.
Qed.

Lemma no_pbb a : no_type_no_group a -> is_pbb a = false.
Proof.
  intros N. unfold is_pbb, eff_of, kind. unfold no_type_no_group in N. cbn [In] in N.
  repeat (match goal with |- context [if String.eqb (fst a) ?c then _ else _] => destruct (String.eqb_spec (fst a) c) as [W|_]; [try (exfalso; apply N; rewrite W; tauto)|]; cbn iota end); try reflexivity.
  destruct (snd a); reflexivity.
Qed.
Lemma no_pbb_list l : Forall no_type_no_group l -> no_pbb_pair l.
Proof. intros F a b A B. rewrite Forall_forall in F. unfold pbb_pair. rewrite !no_pbb by auto. reflexivity. Qed.
Lemma mirror_act_no a : no_type_no_group a -> no_type_no_group (mirror_act a).
Proof. unfold no_type_no_group. now rewrite mirror_act_name. Qed.
Lemma mirror_run pick l : Forall plain_act l -> Forall no_type_no_group l -> forall p,
  same_pkt (run_pkt (map mirror_act l) (mirror_pkt p)) (mirror_pkt (run_pkt l p)) /\
  Forall2 same_copy (run_out pick (map mirror_act l) (mirror_pkt p)) (map mirror_out (run_out pick l p)).
Proof.
  induction l as [|a l IH]; intros P N p; [split; [apply same_pkt_refl|constructor]|]. inversion P as [|? ? P1 P2]; inversion N as [|? ? N1 N2]; subst.
  cbn [map run_pkt run_out]. destruct (IH P2 N2 (rewrite_pkt a p)) as [A B]. destruct (run_cong pick (map mirror_act l) _ _ (mirror_rewrite a p P1 N1)) as [C D].
  split; [eapply same_pkt_trans; eauto|]. rewrite map_app, <- mirror_emit by auto. apply Forall2_app; [|eapply same_copies_trans; eauto].
  clear. induction (emit pick _ _) as [|x xs IH]; constructor; auto. split; [reflexivity|apply same_pkt_refl].
Qed.
(** ** Rules *)
Definition plain_rule (r : registry) (c : rule) : Prop :=
  match_ok r (rmatch (rcore c)) /\ Forall plain_item (m_items (rmatch (rcore c))) /\
  exists xs, al_of xs = Ok (apply_actions (inst (rcore c))) /\ Forall plain_act xs /\ forall a b, In a xs -> In b xs -> compat a b.
Lemma reverse_rule_ok r c : reg_ok r -> plain_rule r c ->
  exists c', reverse_rule false c r = (r, Ok c') /\ plain_rule r c' /\ mirrored c c' /\
    m_items (rmatch (rcore c')) = map mirror_item (m_items (rmatch (rcore c))) /\
    teq (map mirror_act (al_iter (apply_actions (inst (rcore c))))) (al_iter (apply_actions (inst (rcore c')))) /\
    write_actions (inst (rcore c')) = write_actions (inst (rcore c)).
Proof.
  intros R [M [PI [xs [X1 [X2 X3]]]]]. destruct c as [c pth]. cbn [rcore] in *. unfold reverse_rule. cbn [rcore].
  destruct (reverse_items_ok r R (m_items (rmatch c)) [] (rmatch c) M eq_refl PI) as [m' [E1 [M' I']]]. unfold sbind at 1. rewrite E1.
  destruct (reverse_actions_ok xs _ X1 X2 X3) as [l' [E2 [L1 L2]]]. unfold sbind. rewrite E2. cbn [slift]. eexists. split; [reflexivity|].
  pose proof (al_ok_iter _ _ (al_of_ok _ _ X1)) as T. pose proof (ateq_perm _ _ T) as PM.
  assert (PA : Forall plain_act (al_iter (apply_actions (inst c)))) by (eapply Permutation_Forall; [exact PM|exact X2]).
  assert (L3 : al_of (map mirror_act (al_iter (apply_actions (inst c)))) = Ok l').
  { unfold reverse_actions in E2. apply rbind_ok in E2 as [ys [E3 E4]]. rewrite (rall_map_ok reverse_action mirror_act) in E3; [|intros x X; apply reverse_action_ok; rewrite Forall_forall in PA; auto]. congruence. }
  cbn [app] in I'. split; [|split; [|split; [exact I'|split; [|reflexivity]]]].
  - split; [exact M'|]. cbn [rcore rmatch]. split; [rewrite I'; apply Forall_map; eapply Forall_impl; [|exact PI]; intros; now apply mirror_item_plain|].
    exists (map mirror_act (al_iter (apply_actions (inst c)))). split; [exact L3|]. split; [apply Forall_map; eapply Forall_impl; [|exact PA]; intros; now apply mirror_act_plain|].
    intros a b A B. apply in_map_iff in A as [a' [<- A]]. apply in_map_iff in B as [b' [<- B]]. apply mirror_act_compat. apply X3; eapply Permutation_in; try (apply Permutation_sym; exact PM); auto.
  - unfold mirrored. cbn [path rcore priority table cookie inst goto_table clear_actions apply_actions]. do 6 (split; [reflexivity|]). split.
    + intros p. unfold rule_accepts. cbn [rcore rmatch]. rewrite I'. now apply mirror_items_accept.
    + intros N pick p. destruct (mirror_run pick _ PA N p) as [A B].
      assert (NP : no_pbb_pair (map mirror_act (al_iter (apply_actions (inst c))))) by (apply no_pbb_list, Forall_map; eapply Forall_impl; [|exact N]; intros; now apply mirror_act_no).
      pose proof (al_ok_iter _ _ L1) as T'. pose proof (teq_effect pick _ _ T' NP) as EF. destruct (EF (mirror_pkt p)) as [EF1 EF2]. split.
      * eapply same_pkt_trans; [apply same_pkt_sym; exact EF1|exact A].
      * eapply same_outs_trans; [apply same_outs_sym; exact EF2|]. now apply same_outs_copies.
  - cbn [rcore inst apply_actions]. exact (al_ok_iter _ _ L1).
Qed.
Lemma map_twice {A} (f : A -> A) (P : A -> Prop) l : Forall P l -> (forall x, P x -> f (f x) = x) -> map f (map f l) = l.
Proof. intros F H. induction F as [|x l X F IH]; [reflexivity|]. cbn [map]. now rewrite H, IH. Qed.
Lemma reverse_rule_twice r c : reg_ok r -> plain_rule r c ->
  exists c' c'', reverse_rule false c r = (r, Ok c') /\ reverse_rule false c' r = (r, Ok c'') /\ mirrored c c' /\ plain_rule r c' /\ same_rule c c''.
Proof.
  intros R P. destruct (reverse_rule_ok r c R P) as [c1 [E1 [P1 [M1 [I1 [T1 W1]]]]]]. destruct (reverse_rule_ok r c1 R P1) as [c2 [E2 [P2 [M2 [I2 [T2 W2]]]]]].
  exists c1, c2. split; [auto|]. split; [auto|]. split; [auto|]. split; [auto|].
  destruct M1 as [A1 [A2 [A3 [A4 [A5 [A6 _]]]]]]. destruct M2 as [B1 [B2 [B3 [B4 [B5 [B6 _]]]]]]. unfold same_rule.
  do 4 (split; [congruence|]). split.
  { rewrite I2, I1. apply (map_twice mirror_item plain_item); [apply P|apply mirror_item_twice]. }
  split; [|repeat split; congruence].
  destruct P as [_ [_ [xs [X1 [X2 X3]]]]]. destruct P2 as [_ [_ [ys [Y1 _]]]].
  pose proof (al_ok_iter _ _ (al_of_ok _ _ X1)) as T.
  assert (PA : Forall plain_act (al_iter (apply_actions (inst (rcore c))))) by (eapply Permutation_Forall; [exact (ateq_perm _ _ T)|exact X2]).
  unfold al_iter. f_equal. eapply al_ok_levels_eq; [apply al_of_ok; exact Y1|apply al_of_ok; exact X1|].
  eapply te_trans; [apply al_ok_iter, al_of_ok; exact Y1|]. eapply te_trans; [apply ateq_sym; exact T2|].
  eapply te_trans; [apply ateq_sym, mirror_teq; exact T1|]. rewrite (map_twice mirror_act plain_act) by (auto using mirror_act_twice). apply ateq_sym. exact T.
Qed.
Lemma reverse_fold r l : reg_ok r -> Forall (plain_rule r) l -> forall done, exists l',
  sfold (fun done c => sdo c' <- reverse_rule false c; sret (done ++ [c'])) l done r = (r, Ok (done ++ l')) /\ Forall2 mirrored l l' /\ Forall (plain_rule r) l' /\
  forall done', exists l'', sfold (fun done c => sdo c' <- reverse_rule false c; sret (done ++ [c'])) l' done' r = (r, Ok (done' ++ l'')) /\ Forall2 same_rule l l''.
Proof.
  intros R F. induction F as [|c l P F IH]; intros done; cbn [sfold].
  - exists []. rewrite app_nil_r. split; [reflexivity|]. split; [constructor|]. split; [constructor|]. intros done'. exists []. rewrite app_nil_r. split; [reflexivity|constructor].
  - destruct (reverse_rule_twice r c R P) as [c1 [c2 [E1 [E2 [M1 [P1 S1]]]]]]. unfold sbind at 1 2. rewrite E1. cbn [sret].
    destruct (IH (done ++ [c1])) as [l' [E3 [M2 [P2 H]]]]. exists (c1 :: l'). change (c1 :: l') with ([c1] ++ l'). rewrite app_assoc. split; [exact E3|].
    split; [constructor; auto|]. split; [constructor; auto|]. intros done'. cbn [app sfold]. destruct (H (done' ++ [c2])) as [l'' [E4 S2]]. exists (c2 :: l'').
    unfold sbind at 1 2. rewrite E2. cbn [sret]. change (c2 :: l'') with ([c2] ++ l''). rewrite app_assoc. split; [exact E4|]. constructor; auto.
Qed.
Lemma reverse_fields_ok r l : reg_ok r -> Forall (plain_rule r) l -> exists l' l'',
  reverse_fields false l r = (r, Ok l') /\ Forall2 mirrored l l' /\ reverse_fields false l' r = (r, Ok l'') /\ Forall2 same_rule l l''.
Proof.
  intros R F. destruct (reverse_fold r l R F []) as [l' [E [M [_ H]]]]. destruct (H []) as [l'' [E' S]]. exists l', l''. cbn [app] in *. auto.
Qed.
Lemma mirrored_hits l l' : Forall2 mirrored l l' -> forall p o, first_match l (mirror_packet p) o ->
  match o with None => first_match l' p None | Some c => exists c', first_match l' p (Some c') /\ mirrored c c' end.
Proof.
  induction 1 as [|c c' l l' M F IH]; intros p o H; inversion H as [|? ? ? A|? ? ? ? A B]; subst; [constructor| |].
  - exists c'. split; [|auto]. constructor. apply M. auto.
  - specialize (IH _ _ B). assert (N : ~ rule_accepts c' p) by (intros Q; apply A; now apply M).
    destruct o as [x|]; [destruct IH as [x' [I1 I2]]; exists x'; split; [|auto]|]; now apply fm_miss.
Qed.
Lemma reverse_py3 c l r : reverse_fields true (c :: l) r = (r, Err AttributeError).
Proof. reflexivity. Qed.
