(** Proofs about Match objects and the field registry (C05, C06, C09, C58). *)
From Verif Require Import Match Spec WildcardProofs MortonProofs MatchWcProofs.
From Coq Require Import ZifyBool ZifyNat ZifyN FinFun.
Ltac Zify.zify_post_hook ::= Z.div_mod_to_equations.
Local Opaque NB oxm_fields layout.

(** *** Dicts *)
Section DictProofs.
  Context {V : Type}.
  Implicit Types d : dict V.

  Lemma dict_get_in d k v : dict_get d k = Some v -> In (k, v) d.
  Proof.
    unfold dict_get. induction d as [|[k' v'] t IH]; cbn; [discriminate|].
    destruct (String.eqb_spec k' k) as [->|]; [intros [= ->]; auto|auto].
  Qed.
  Lemma dict_get_none d k : dict_get d k = None <-> ~ In k (map fst d).
  Proof.
    unfold dict_get. induction d as [|[k' v'] t IH]; cbn; [tauto|].
    destruct (String.eqb_spec k' k) as [->|Hn]; [split; [discriminate|intros H; exfalso; apply H; auto]|].
    rewrite IH. split; [intros H [?|?]; auto|intros H ?; auto].
  Qed.
  Lemma dict_in_get d k v : NoDup (map fst d) -> In (k, v) d -> dict_get d k = Some v.
  Proof.
    unfold dict_get. induction d as [|[k' v'] t IH]; cbn; [intros _ []|].
    intros ND [E|Hin]; inversion ND as [|? ? Hn HND]; subst.
    - injection E as -> ->. now rewrite String.eqb_refl.
    - destruct (String.eqb_spec k' k) as [->|]; auto.
      exfalso. apply Hn. change k with (fst (k, v)). now apply in_map.
  Qed.
  Lemma dict_get_app d d' k : dict_get (d ++ d') k = match dict_get d k with Some v => Some v | None => dict_get d' k end.
  Proof.
    unfold dict_get. induction d as [|[k' v'] t IH]; cbn; [reflexivity|].
    destruct (String.eqb k' k); auto.
  Qed.

  Lemma dict_set_new d k v : ~ In k (map fst d) -> dict_set d k v = d ++ [(k, v)].
  Proof.
    induction d as [|[k' v'] t IH]; cbn; [reflexivity|]. intros H.
    destruct (String.eqb_spec k' k) as [->|]; [exfalso; auto|]. rewrite IH; auto.
  Qed.
  Lemma dict_set_keys d k v : map fst (dict_set d k v) = if existsb (String.eqb k) (map fst d) then map fst d else map fst d ++ [k].
  Proof.
    induction d as [|[k' v'] t IH]; cbn; [reflexivity|].
    rewrite (String.eqb_sym k k'). destruct (String.eqb_spec k' k) as [->|]; cbn; [reflexivity|].
    rewrite IH. destruct (existsb _ _); reflexivity.
  Qed.
  Lemma existsb_key k (l : list string) : existsb (String.eqb k) l = true <-> In k l.
  Proof.
    rewrite existsb_exists. split; [intros [x [H E]]; apply String.eqb_eq in E; now subst|].
    intros H. exists k. split; auto. apply String.eqb_refl.
  Qed.
  Lemma dict_set_nodup d k v : NoDup (map fst d) -> NoDup (map fst (dict_set d k v)).
  Proof.
    intros ND. rewrite dict_set_keys. destruct (existsb _ _) eqn:E; [auto|].
    assert (~ In k (map fst d)) by (rewrite <- existsb_key; congruence).
    rewrite <- (rev_involutive (_ ++ _)). apply NoDup_rev. rewrite rev_app_distr. cbn.
    constructor; [|now apply NoDup_rev]. now rewrite <- in_rev.
  Qed.
  Lemma dict_set_in d k v k0 v0 : NoDup (map fst d) ->
    In (k0, v0) (dict_set d k v) <-> (k0 = k /\ v0 = v) \/ (k0 <> k /\ In (k0, v0) d).
  Proof.
    induction d as [|[k' v'] t IH]; cbn; intros ND.
    - split; [intros [[= -> ->]|[]]; auto|intros [[-> ->]|[_ []]]; auto].
    - inversion ND as [|? ? Hn HND]; subst. destruct (String.eqb_spec k' k) as [->|Hk]; cbn.
      + split.
        * intros [[= -> ->]|Hin]; [auto|]. right. split; [|auto].
          intros ->. apply Hn. change k with (fst (k, v0)). now apply in_map.
        * intros [[-> ->]|[Hne [[= -> ->]|Hin]]]; auto. congruence.
      + rewrite IH by auto. split.
        * intros [[= -> ->]|[?|?]]; auto; tauto.
        * intros [[-> ->]|[Hne [E|Hin]]]; auto.
  Qed.
  Lemma dict_del_keys d k : NoDup (map fst d) -> forall x, In x (map fst (dict_del d k)) <-> x <> k /\ In x (map fst d).
  Proof.
    induction d as [|[k' v'] t IH]; cbn; intros ND x; [tauto|].
    inversion ND as [|? ? Hn HND]; subst. destruct (String.eqb_spec k' k) as [->|Hk]; cbn.
    - split; [intros H; split; [intros ->; auto|auto]|]. intros [Hne [?|?]]; [congruence|auto].
    - rewrite IH by auto. split; [intros [->|[? ?]]; auto|]. intros [? [?|?]]; auto.
  Qed.
  Lemma dict_del_nodup d k : NoDup (map fst d) -> NoDup (map fst (dict_del d k)).
  Proof.
    induction d as [|[k' v'] t IH]; cbn; intros ND; [constructor|].
    inversion ND as [|? ? Hn HND]; subst. destruct (String.eqb_spec k' k) as [->|Hk]; cbn; [auto|].
    constructor; auto. rewrite dict_del_keys by auto. tauto.
  Qed.
  Lemma dict_del_in d k k0 v0 : NoDup (map fst d) ->
    In (k0, v0) (dict_del d k) <-> k0 <> k /\ In (k0, v0) d.
  Proof.
    induction d as [|[k' v'] t IH]; cbn; intros ND; [tauto|].
    inversion ND as [|? ? Hn HND]; subst. destruct (String.eqb_spec k' k) as [->|Hk]; cbn.
    - split.
      + intros H. split; [|auto]. intros ->. apply Hn. change k with (fst (k, v0)). now apply in_map.
      + intros [Hne [[= -> ->]|?]]; [congruence|auto].
    - rewrite IH by auto. split; [intros [[= -> ->]|?]; tauto|]. intros [? [?|?]]; auto.
  Qed.
End DictProofs.

(** *** Registry *)
Definition reg_ok (r : registry) : Prop :=
  NoDup (map fst r) /\
  map (fun e => fst (snd e)) r = map Z.of_nat (seq 0 (List.length r)) /\
  exists extra, r = registry_init ++ extra /\ forall e, In e extra -> snd (snd e) = None.

Lemma registry_init_nodup : NoDup (map fst registry_init).
Proof.
  assert (E : map fst registry_init = rev (map sl_name layout)) by (vm_compute; reflexivity).
  rewrite E. apply NoDup_rev, layout_names_nodup.
Qed.

Lemma reg_init_ok : reg_ok registry_init.
Proof.
  split; [exact registry_init_nodup|]. split; [vm_compute; reflexivity|].
  exists []. rewrite app_nil_r. split; [reflexivity|intros e []].
Qed.

Lemma reg_last r : reg_ok r ->
  (match rev r with [] => -1 | (_, (i, _)) :: _ => i end) + 1 = Z.of_nat (List.length r).
Proof.
  intros [_ [Hids _]].
  destruct (rev r) as [|[k [i b]] t] eqn:E.
  - apply (f_equal (@rev _)) in E. rewrite rev_involutive in E. subst. reflexivity.
  - apply (f_equal (@rev _)) in E. rewrite rev_involutive in E. cbn in E. subst r.
    rewrite app_length in *. cbn [List.length] in *. rewrite map_app, seq_app, map_app in Hids.
    cbn in Hids. apply app_inj_tail in Hids as [_ H]. lia.
Qed.

Lemma oxm_name_to_id_ok r name : reg_ok r ->
  let '(r', id) := oxm_name_to_id r name in
  reg_ok r' /\ (exists b, dict_get r' name = Some (id, b)) /\
  (forall k v, dict_get r k = Some v -> dict_get r' k = Some v) /\
  (exists ext, r' = r ++ ext).
Proof.
  intros Hr. unfold oxm_name_to_id. destruct (dict_get r name) as [[i b]|] eqn:E.
  - split; [auto|]. split; [eauto|]. split; [auto|]. exists []. now rewrite app_nil_r.
  - rewrite (reg_last r Hr). assert (HN := proj1 (dict_get_none r name) E).
    destruct Hr as [ND [Hids [extra [Er Hex]]]]. split; [split; [|split]|].
    + rewrite map_app. cbn. rewrite <- (rev_involutive (_ ++ _)). apply NoDup_rev.
      rewrite rev_app_distr. cbn. constructor; [now rewrite <- in_rev|now apply NoDup_rev].
    + rewrite map_app, app_length, seq_app, map_app, Hids. reflexivity.
    + exists (extra ++ [(name, (Z.of_nat (List.length r), None))]). rewrite app_assoc, <- Er.
      split; [reflexivity|]. intros e He. apply in_app_or in He as [He|[<-|[]]]; auto.
    + split; [|split].
      * exists None. rewrite dict_get_app, E. cbn. now rewrite String.eqb_refl.
      * intros k v H. now rewrite dict_get_app, H.
      * eauto.
Qed.

Lemma reg_id_inj r k k' i b b' : reg_ok r ->
  dict_get r k = Some (i, b) -> dict_get r k' = Some (i, b') -> k = k'.
Proof.
  intros [_ [Hids _]] H H'. apply dict_get_in in H. apply dict_get_in in H'.
  assert (ND : NoDup (map (fun e => fst (snd e)) r)).
  { rewrite Hids. apply FinFun.Injective_map_NoDup; [intros x y; lia|apply seq_NoDup]. }
  clear Hids. induction r as [|[k0 [i0 b0]] t IH]; [destruct H|].
  cbn in ND. inversion ND as [|? ? Hn HND]; subst.
  destruct H as [E|H], H' as [E'|H']; auto.
  - congruence.
  - injection E as -> -> ->. exfalso. apply Hn. apply (in_map (fun e => fst (snd e))) in H'. exact H'.
  - injection E' as -> -> ->. exfalso. apply Hn. apply (in_map (fun e => fst (snd e))) in H. exact H.
Qed.

Lemma reg_id_nonneg r k i b : reg_ok r -> dict_get r k = Some (i, b) -> 0 <= i.
Proof.
  intros [_ [Hids _]] H. apply dict_get_in in H. apply (in_map (fun e => fst (snd e))) in H.
  rewrite Hids in H. apply in_map_iff in H as [n [E _]]. cbn in E. lia.
Qed.

Lemma find_field_assoc l n : option_map (fun d => (fd_id d, Some (fd_bits d))) (find_field l n) =
  dict_get (map (fun d => (fd_name d, (fd_id d, Some (fd_bits d)))) l) n.
Proof.
  unfold dict_get. induction l as [|d t IH]; cbn; [reflexivity|].
  destruct (String.eqb (fd_name d) n); auto.
Qed.

Lemma reg_bits_known r name s : reg_ok r -> In s layout -> sl_name s = name ->
  exists i, dict_get r name = Some (i, Some (sl_bits s)).
Proof.
  intros [_ [_ [extra [-> _]]]] Hs <-. destruct (layout_lookup s Hs) as [A _].
  unfold field_bits in A. rewrite dict_get_app. unfold registry_init. rewrite <- find_field_assoc.
  destruct (find_field oxm_fields (sl_name s)) as [d|]; [|discriminate]. cbn in *.
  injection A as ->. eauto.
Qed.

(** *** Matches *)
Definition match_ok (r : registry) (m : Match) : Prop :=
  NoDup (map fst (m_items m)) /\
  (forall k v mk id, In (k, (v, mk, id)) (m_items m) -> exists b, dict_get r k = Some (id, b)) /\
  0 <= m_required m /\
  (forall b, 0 <= b -> Z.testbit (m_required m) b = true <-> exists k v mk, In (k, (v, mk, b)) (m_items m)) /\
  (forall w, m_cache m = Some w -> flow_matches_to_wildcard (items_view (m_items m)) = Ok w).

Ltac mo := split; [|split; [|split; [|split]]]; cbn [m_items m_required m_cache].

Lemma match_new_ok r : match_ok r match_new.
Proof.
  unfold match_new. mo.
  - constructor.
  - intros ? ? ? ? [].
  - lia.
  - intros b Hb. rewrite Z.bits_0. split; [discriminate|]. intros [? [? [? []]]].
  - discriminate.
Qed.

Lemma match_ok_mono r r' m : (forall k v, dict_get r k = Some v -> dict_get r' k = Some v) ->
  match_ok r m -> match_ok r' m.
Proof.
  intros H [A [B C]]. split; [auto|]. split; [|auto].
  intros k v mk id Hin. destruct (B _ _ _ _ Hin) as [b Hb]. eauto.
Qed.

Lemma shiftl1_testbit i b : 0 <= i -> 0 <= b -> Z.testbit (Z.shiftl 1 i) b = (i =? b).
Proof. intros. rewrite Z.shiftl_1_l. now apply Z.pow2_bits_eqb. Qed.

Lemma match_append_ok r m name v mk : reg_ok r -> match_ok r m ->
  let '(r', m') := match_append r m name v mk in
  reg_ok r' /\ match_ok r' m' /\ (forall k x, dict_get r k = Some x -> dict_get r' k = Some x).
Proof.
  intros Hr Hm. unfold match_append.
  assert (H := oxm_name_to_id_ok r name Hr). destruct (oxm_name_to_id r name) as [r' id].
  destruct H as [Hr' [[b Hid] [Hmono _]]]. rewrite Hid.
  destruct (append_norm b v mk) as [v' mk'] eqn:En. split; [auto|]. split; [|auto].
  destruct (match_ok_mono r r' m Hmono Hm) as [A [B [C [D E]]]].
  assert (Hidn : 0 <= id) by (eapply reg_id_nonneg; eauto).
  mo.
  - now apply dict_set_nodup.
  - intros k v0 mk0 id0 Hin. apply dict_set_in in Hin as [[-> [= -> -> ->]]|[Hne Hin]]; eauto.
  - apply Z.lor_nonneg. split; auto. apply Z.shiftl_nonneg. lia.
  - intros b0 Hb0. rewrite Z.lor_spec, shiftl1_testbit by lia. split.
    + intros H. apply orb_true_iff in H as [H|H].
      * apply D in H as [k [v0 [mk0 Hin]]]; [|auto].
        destruct (String.string_dec k name) as [->|Hne].
        -- exists name, v', mk'. apply dict_set_in; auto. left. split; [auto|].
           destruct (B _ _ _ _ Hin) as [b1 Hb1]. rewrite Hid in Hb1. congruence.
        -- exists k, v0, mk0. apply dict_set_in; auto.
      * apply Z.eqb_eq in H as <-. exists name, v', mk'. apply dict_set_in; auto.
    + intros [k [v0 [mk0 Hin]]].
      apply dict_set_in in Hin as [[-> [= -> -> ->]]|[Hne Hin]]; auto.
      * rewrite Z.eqb_refl. apply orb_true_r.
      * rewrite (proj2 (D b0 Hb0)); eauto.
  - discriminate.
Qed.

Lemma match_append_all_ok l : forall r m, reg_ok r -> match_ok r m ->
  let '(r', m') := match_append_all r m l in
  reg_ok r' /\ match_ok r' m' /\ (forall k x, dict_get r k = Some x -> dict_get r' k = Some x).
Proof.
  induction l as [|[name [v mk]] t IH]; intros r m Hr Hm; cbn [match_append_all]; [auto|].
  assert (H := match_append_ok r m name v mk Hr Hm).
  destruct (match_append r m name v mk) as [r1 m1]. destruct H as [H1 [H2 H3]].
  specialize (IH r1 m1 H1 H2). destruct (match_append_all r1 m1 t) as [r2 m2].
  destruct IH as [I1 [I2 I3]]. auto.
Qed.

Lemma match_del_ok r m name : reg_ok r -> match_ok r m -> match_ok r (fst (match_del m name)).
Proof.
  intros Hr [A [B [C [D E]]]]. unfold match_del.
  destruct (dict_get (m_items m) name) as [[[v mk] id]|] eqn:Eg; cbn [fst].
  - apply dict_get_in in Eg. destruct (B _ _ _ _ Eg) as [b Hb].
    assert (Hid : 0 <= id) by (eapply reg_id_nonneg; eauto).
    mo.
    + now apply dict_del_nodup.
    + intros k v0 mk0 id0 Hin. apply dict_del_in in Hin as [_ Hin]; eauto.
    + apply Z.land_nonneg. auto.
    + intros b0 Hb0. rewrite Z.land_spec, Z.lnot_spec, shiftl1_testbit by lia. split.
      * intros H1. apply andb_true_iff in H1 as [H1 H2]. apply D in H1 as [k [v0 [mk0 Hin]]]; [|auto].
        exists k, v0, mk0. apply dict_del_in; auto. split; [|auto]. intros ->.
        destruct (B _ _ _ _ Hin) as [b1 Hb1]. assert (id = b0) by congruence. lia.
      * intros [k [v0 [mk0 Hin]]].
        apply dict_del_in in Hin as [Hne Hin]; auto. rewrite (proj2 (D b0 Hb0)) by eauto.
        destruct (Z.eqb_spec id b0) as [->|]; [|reflexivity].
        exfalso. destruct (B _ _ _ _ Hin) as [b1 Hb1]. apply Hne. eapply reg_id_inj; eauto.
    + discriminate.
  - mo; auto. discriminate.
Qed.

Lemma match_del_all_ok r l : forall m m', reg_ok r -> match_ok r m -> match_del_all m l = Ok m' -> match_ok r m'.
Proof.
  induction l as [|k t IH]; intros m m' Hr Hm H; cbn [match_del_all] in H; [congruence|].
  assert (Hd := match_del_ok r m k Hr Hm). destruct (match_del m k) as [m1 [u|e]]; [|discriminate].
  eapply IH; eauto.
Qed.

Lemma match_wildcard_ok r m : match_ok r m ->
  exists m' w, match_get_wildcard m = Ok (m', w) /\ match_ok r m' /\ wc_ok w /\ padding_open w /\
  m_items m' = m_items m /\ m_required m' = m_required m /\ m_cache m' = Some w /\
  flow_matches_to_wildcard (items_view (m_items m)) = Ok w /\
  forall p, accepts w p <-> match_accepts (items_view (m_items m)) p.
Proof.
  intros [A [B [C [D E]]]]. unfold match_get_wildcard.
  destruct (wildcard_of_match (items_view (m_items m))) as [w [Ew [Rw [Pw [Aw Zw]]]]].
  assert (Hk : map fst (items_view (m_items m)) = map fst (m_items m)).
  { unfold items_view. rewrite map_map. apply map_ext. intros [k [[v mk] id]]. reflexivity. }
  rewrite Hk in Zw.
  destruct (m_cache m) as [w0|] eqn:Ec.
  - assert (w0 = w) as -> by (specialize (E w0 eq_refl); congruence).
    exists m, w. split; [auto|]. split.
    { mo; auto. rewrite Ec. auto. }
    split; [split; auto|]. auto 10.
  - rewrite Ew. cbn [rbind]. eexists _, w. split; [reflexivity|]. split.
    { mo; auto. intros ? [= <-]. auto. }
    split; [split; auto|]. auto 10.
Qed.

(** Canonical items are stored unchanged. *)
Lemma append_norm_canonical it s : In s layout -> fst it = sl_name s -> item_canonical it ->
  append_norm (Some (sl_bits s)) (fst (snd it)) (snd (snd it)) = snd it.
Proof.
  intros Hs Hf [s' [Hs' [Hf' Hc]]]. assert (s' = s) as -> by (apply slot_name_inj; congruence).
  destruct it as [k [v [mk|]]]; cbn [fst snd] in *; [|reflexivity].
  unfold append_norm. destruct Hc as [H1 [H2 H3]]. destruct (slot_range s Hs) as [_ [Hb _]].
  replace ((sl_bits s =? 0) || (mk =? 0)) with false by lia.
  replace (2 ^ sl_bits s - 1) with (Z.ones (sl_bits s)) by (rewrite Z.ones_equiv; lia).
  rewrite Z.land_ones, Z.mod_small by lia. rewrite H3.
  replace (mk =? Z.ones (sl_bits s)) with false; [reflexivity|]. rewrite Z.ones_equiv. lia.
Qed.

Lemma append_all_canonical l : forall r m, reg_ok r ->
  (forall it, In it l -> item_canonical it) ->
  NoDup (map fst l) -> (forall k, In k (map fst l) -> ~ In k (map fst (m_items m))) ->
  let '(r', m') := match_append_all r m l in
  items_view (m_items m') = items_view (m_items m) ++ l.
Proof.
  induction l as [|[k [v mk]] t IH]; intros r m Hr Hc ND Hdis; cbn [match_append_all].
  - now rewrite app_nil_r.
  - assert (Hcan := Hc (k, (v, mk)) (or_introl eq_refl)). assert (Hcan2 := Hcan).
    destruct Hcan2 as [s [Hs [Hf _]]]. cbn [fst] in Hf.
    unfold match_append. assert (H := oxm_name_to_id_ok r k Hr).
    destruct (oxm_name_to_id r k) as [r1 id] eqn:Eid. destruct H as [Hr1 [[b Hid] [Hmono _]]].
    destruct (reg_bits_known r1 k s Hr1 Hs (eq_sym Hf)) as [i Hi].
    rewrite Hid in Hi. injection Hi as -> ->. rewrite Hid.
    assert (Hn := append_norm_canonical (k, (v, mk)) s Hs Hf Hcan). cbn [fst snd] in Hn. rewrite Hn.
    cbn in ND. inversion ND as [|? ? Hnk HND]; subst.
    assert (Hk : ~ In (sl_name s) (map fst (m_items m))) by (apply Hdis; now left).
    rewrite dict_set_new by auto.
    match goal with |- context [match_append_all ?r ?m t] => specialize (IH r m) end.
    match goal with |- context [match_append_all ?r ?m t] => destruct (match_append_all r m t) as [r2 m2] end.
    rewrite IH; auto.
    + cbn [m_items]. unfold items_view. rewrite map_app, <- app_assoc. reflexivity.
    + intros it Hit. apply Hc. now right.
    + intros k' Hk' Hin. cbn [m_items] in Hin. rewrite map_app in Hin. apply in_app_or in Hin as [Hin|[<-|[]]].
      * apply (Hdis k'); [now right|auto].
      * auto.
Qed.

Lemma from_wildcard_ok r wc : reg_ok r -> wc_ok wc -> padding_open wc ->
  exists r' m, flow_wildcard_to_flowmatches r wc = Ok (r', m) /\ reg_ok r' /\ match_ok r' m /\
  (forall k x, dict_get r k = Some x -> dict_get r' k = Some x) /\
  m_cache m = Some wc /\ flow_matches_to_wildcard (items_view (m_items m)) = Ok wc /\
  (forall it, In it (items_view (m_items m)) -> item_canonical it).
Proof.
  intros Hr Hwc Hp. destruct (round_trip wc Hwc Hp) as [fields [E1 [E2 [ND Hc]]]].
  unfold flow_wildcard_to_flowmatches. rewrite E1. cbn [rbind].
  assert (Hok := match_append_all_ok fields r match_new Hr (match_new_ok r)).
  assert (Hv := append_all_canonical fields r match_new Hr Hc ND (fun k _ H => H)).
  destruct (match_append_all r match_new fields) as [r' m]. destruct Hok as [H1 [H2 H3]].
  cbn [m_items match_new items_view map app] in Hv.
  exists r', (MkMatch (m_items m) (m_required m) (Some wc)). split; [reflexivity|]. split; [auto|].
  destruct H2 as [A [B [C [D E]]]]. split; [|split; [auto|]].
  - mo; auto. intros w [= <-]. rewrite Hv. auto.
  - cbn [m_items m_cache]. rewrite Hv. auto.
Qed.

(** *** Sessions *)
Definition session_ok (s : session) : Prop :=
  reg_ok (s_reg s) /\ Forall (match_ok (s_reg s)) (s_ms s).

Lemma Forall_set_nth {A} (P : A -> Prop) n x l : Forall P l -> P x -> Forall P (set_nth n x l).
Proof.
  intros H. revert n. induction H as [|y t Hy Ht IH]; intros n Hx; cbn; [constructor|].
  destruct n; constructor; auto.
Qed.
Lemma Forall_nth_error {A} (P : A -> Prop) n x l : Forall P l -> nth_error l n = Some x -> P x.
Proof. intros H E. apply nth_error_In in E. rewrite Forall_forall in H. auto. Qed.

Lemma Forall_mono r r' ms : (forall k v, dict_get r k = Some v -> dict_get r' k = Some v) ->
  Forall (match_ok r) ms -> Forall (match_ok r') ms.
Proof. intros H. apply Forall_impl. intros m. now apply match_ok_mono. Qed.

Lemma Forall_snoc {A} (P : A -> Prop) l x : Forall P l -> P x -> Forall P (l ++ [x]).
Proof. intros H Hx. apply Forall_app. auto. Qed.

Lemma wildcards_of_ok s i j s' wa wb : session_ok s -> wildcards_of s i j = Some (s', wa, wb) ->
  session_ok s' /\ wc_ok wa /\ padding_open wa /\ wc_ok wb /\ padding_open wb.
Proof.
  intros [Hr Hm] H. unfold wildcards_of in H.
  destruct (nth_error (s_ms s) i) as [a|] eqn:Ea; [|discriminate].
  assert (Ha := Forall_nth_error _ _ _ _ Hm Ea).
  destruct (match_wildcard_ok _ _ Ha) as [a' [wa' [Ea' [Ha' [Wa [Pa _]]]]]]. rewrite Ea' in H.
  destruct (nth_error (set_nth i a' (s_ms s)) j) as [b|] eqn:Eb; [|discriminate].
  assert (Hm' := Forall_set_nth _ i _ _ Hm Ha').
  assert (Hb := Forall_nth_error _ _ _ _ Hm' Eb).
  destruct (match_wildcard_ok _ _ Hb) as [b' [wb' [Eb' [Hb' [Wb [Pb _]]]]]]. rewrite Eb' in H.
  injection H as <- <- <-. split; [split; [auto|now apply Forall_set_nth]|]. auto.
Qed.

Lemma padding_open_land a b : padding_open a -> padding_open b -> padding_open (Z.land a b).
Proof. intros Ha Hb i Hi. rewrite Z.land_spec, Ha, Hb by lia. reflexivity. Qed.
Lemma padding_open_lor a b : padding_open a -> padding_open (Z.lor a b).
Proof. intros Ha i Hi. rewrite Z.lor_spec, Ha by lia. reflexivity. Qed.
Lemma padding_open_intersect a b : padding_open a -> padding_open b ->
  wildcard_intersect a b <> 0 -> padding_open (wildcard_intersect a b).
Proof.
  intros Ha Hb Hn. destruct (wildcard_intersect_cases a b) as [[_ ->]|[_ E]]; [|congruence].
  now apply padding_open_land.
Qed.

Lemma not_padding_open_0 : ~ padding_open 0.
Proof. intros H. specialize (H 0). rewrite extra_padding_val, Z.bits_0 in H. specialize (H ltac:(lia)). discriminate. Qed.

Lemma wc_range_0 : wc_range 0.
Proof. split; [lia|]. apply Z.pow_pos_nonneg; [lia|]. assert (H := NB_pos). lia. Qed.

Lemma flowmatches_zero r : flow_wildcard_to_flowmatches r 0 = Err KeyError.
Proof.
  unfold flow_wildcard_to_flowmatches.
  rewrite (to_fields_padding_fails 0 wc_range_0 not_padding_open_0). reflexivity.
Qed.

Lemma match_intersection_ok r wa wb : reg_ok r -> wc_ok wa -> wc_ok wb -> padding_open wa -> padding_open wb ->
  wildcard_intersect wa wb <> 0 ->
  exists r' m, match_intersection r wa wb = Ok (r', m) /\ reg_ok r' /\ match_ok r' m /\
  (forall k x, dict_get r k = Some x -> dict_get r' k = Some x) /\ m_cache m = Some (wildcard_intersect wa wb) /\
  forall p, match_accepts (items_view (m_items m)) p <-> accepts wa p /\ accepts wb p.
Proof.
  intros Hr Wa Wb Pa Pb Hn. unfold match_intersection.
  assert (Hok := wildcard_intersect_ok wa wb (proj1 Wa) Hn).
  destruct (from_wildcard_ok r _ Hr Hok (padding_open_intersect _ _ Pa Pb Hn)) as [r' [m [E [R [M [Mono [C [F _]]]]]]]].
  exists r', m. split; [auto|]. split; [auto|]. split; [auto|]. split; [auto|]. split; [auto|].
  intros p. destruct (wildcard_of_match (items_view (m_items m))) as [w [Ew [_ [_ [Aw _]]]]].
  rewrite F in Ew. injection Ew as <-. rewrite <- Aw. apply wildcard_intersect_accepts.
Qed.

Lemma mstep_ok s o : session_ok s -> session_ok (mstep s o).
Proof.
  intros [Hr Hm]. destruct o as [items|i name v mask|i name|i add remove|i|i j|i j]; cbn [mstep].
  - assert (H := match_append_all_ok items _ _ Hr (match_new_ok (s_reg s))).
    destruct (match_append_all (s_reg s) match_new items) as [r m]. destruct H as [H1 [H2 H3]].
    split; cbn [s_reg s_ms]; auto. apply Forall_snoc; auto. eapply Forall_mono; eauto.
  - destruct (nth_error (s_ms s) i) as [m|] eqn:E; [|split; auto].
    assert (H := match_append_ok _ m name v mask Hr (Forall_nth_error _ _ _ _ Hm E)).
    destruct (match_append (s_reg s) m name v mask) as [r m']. destruct H as [H1 [H2 H3]].
    split; cbn [s_reg s_ms]; auto. apply Forall_set_nth; auto. eapply Forall_mono; eauto.
  - destruct (nth_error (s_ms s) i) as [m|] eqn:E; [|split; auto].
    split; cbn [s_reg s_ms]; auto. apply Forall_set_nth; auto. apply match_del_ok; auto.
    eapply Forall_nth_error; eauto.
  - destruct (nth_error (s_ms s) i) as [m|] eqn:E; [|split; auto].
    assert (Hmi := Forall_nth_error _ _ _ _ Hm E). unfold match_copy.
    destruct (match_del_all m remove) as [m1|e] eqn:Ed; cbn [rbind add_result]; [|split; auto].
    assert (H := match_append_all_ok add _ _ Hr (match_del_all_ok _ _ _ _ Hr Hmi Ed)).
    destruct (match_append_all (s_reg s) m1 add) as [r m2]. destruct H as [H1 [H2 H3]].
    split; cbn [s_reg s_ms]; auto. apply Forall_snoc; auto. eapply Forall_mono; eauto.
  - destruct (nth_error (s_ms s) i) as [m|] eqn:E; [|split; auto].
    assert (Hmi := Forall_nth_error _ _ _ _ Hm E).
    destruct (match_wildcard_ok _ _ Hmi) as [m' [w [-> [Hm' _]]]].
    split; cbn [s_reg s_ms]; auto. now apply Forall_set_nth.
  - destruct (wildcards_of s i j) as [[[s' wa] wb]|] eqn:E; [|split; auto].
    destruct (wildcards_of_ok _ _ _ _ _ _ (conj Hr Hm) E) as [[Hr' Hm'] [Wa [Pa [Wb Pb]]]].
    destruct (Z.eq_dec (wildcard_intersect wa wb) 0) as [E0|N0].
    + unfold match_intersection. rewrite E0, flowmatches_zero. cbn [add_result]. split; auto.
    + destruct (match_intersection_ok _ _ _ Hr' Wa Wb Pa Pb N0) as [r' [m [-> [R [M [Mono _]]]]]].
      cbn [add_result]. split; cbn [s_reg s_ms]; auto. apply Forall_snoc; auto. eapply Forall_mono; eauto.
  - destruct (wildcards_of s i j) as [[[s' wa] wb]|] eqn:E; [|split; auto].
    destruct (wildcards_of_ok _ _ _ _ _ _ (conj Hr Hm) E) as [[Hr' Hm'] [Wa [Pa [Wb Pb]]]].
    unfold match_union_cover.
    destruct (from_wildcard_ok _ (wildcard_union_cover wa wb) Hr' (union_cover_ok _ _ Wa Wb) (padding_open_lor _ _ Pa))
      as [r' [m [-> [R [M [Mono _]]]]]].
    cbn [add_result]. split; cbn [s_reg s_ms]; auto. apply Forall_snoc; auto. eapply Forall_mono; eauto.
Qed.

Lemma mrun_ok ops : session_ok (mrun ops).
Proof.
  unfold mrun. assert (H : session_ok session_init) by (split; [apply reg_init_ok|constructor]).
  revert H. generalize session_init. induction ops as [|o ops IH]; intros s H; cbn [fold_left]; auto.
  apply IH. now apply mstep_ok.
Qed.

(** Equal matches have equal wildcards, hence equal hashes. *)
Lemma item_val_eqb_eq x y : item_val_eqb x y = true <-> x = y.
Proof.
  destruct x as [[v m] i], y as [[v' m'] i']. unfold item_val_eqb. rewrite !andb_true_iff, !Z.eqb_eq. split.
  - intros [[-> H] ->]. destruct m, m'; try discriminate; [apply Z.eqb_eq in H as ->|]; reflexivity.
  - intros [= -> -> ->]. split; [split|]; auto. destruct m'; auto. apply Z.eqb_refl.
Qed.

Lemma dict_eqb_in d d' : NoDup (map fst d) -> NoDup (map fst d') -> dict_eqb d d' = true ->
  forall kv, In kv d <-> In kv d'.
Proof.
  intros ND ND' H. unfold dict_eqb in H. apply andb_true_iff in H as [Hl Hf]. apply Nat.eqb_eq in Hl.
  rewrite forallb_forall in Hf.
  assert (Hincl : incl d d').
  { intros [k v] Hin. specialize (Hf _ Hin). cbn [fst snd] in Hf.
    destruct (dict_get d' k) as [v'|] eqn:E; [|discriminate]. apply item_val_eqb_eq in Hf as ->.
    now apply dict_get_in. }
  assert (NDd : NoDup d) by (eapply NoDup_map_inv; eauto).
  intros kv. split; [apply Hincl|]. apply (NoDup_length_incl NDd); auto. lia.
Qed.

Lemma match_eq_same_wildcard r r' a b : match_ok r a -> match_ok r' b -> match_eqb a b = true ->
  exists w, flow_matches_to_wildcard (items_view (m_items a)) = Ok w /\
            flow_matches_to_wildcard (items_view (m_items b)) = Ok w.
Proof.
  intros Ha Hb H. unfold match_eqb in H. apply andb_true_iff in H as [_ H].
  destruct (match_wildcard_ok _ _ Ha) as [_ [wa [_ [_ [Wa [_ [_ [_ [_ [Ea Aa]]]]]]]]]].
  destruct (match_wildcard_ok _ _ Hb) as [_ [wb [_ [_ [Wb [_ [_ [_ [_ [Eb Ab]]]]]]]]]].
  assert (wa = wb) as ->.
  { apply wc_canonical; auto. intros p. rewrite Aa, Ab.
    assert (Hin := dict_eqb_in _ _ (proj1 Ha) (proj1 Hb) H).
    unfold match_accepts, items_view. split; intros HA it Hit; apply in_map_iff in Hit as [kv [<- Hkv]];
      apply HA; apply in_map_iff; exists kv; split; auto; now apply Hin. }
  eauto.
Qed.

(** *** Statements about any two objects of any session *)
Lemma session_match ops m : In m (s_ms (mrun ops)) -> match_ok (s_reg (mrun ops)) m.
Proof. intros H. destruct (mrun_ok ops) as [_ HF]. rewrite Forall_forall in HF. auto. Qed.

Lemma session_wildcard ops m : In m (s_ms (mrun ops)) ->
  exists m' w, match_get_wildcard m = Ok (m', w) /\ wc_ok w /\ padding_open w /\
  forall p, accepts w p <-> match_accepts (items_view (m_items m)) p.
Proof.
  intros H. apply session_match in H. destruct (match_wildcard_ok _ _ H) as [m' [w [E [_ [W [P R]]]]]].
  exists m', w. split; [auto|]. split; [auto|]. split; [auto|]. apply R.
Qed.

Lemma session_overlaps ops a b : In a (s_ms (mrun ops)) -> In b (s_ms (mrun ops)) ->
  exists a' b' wa wb, match_get_wildcard a = Ok (a', wa) /\ match_get_wildcard b = Ok (b', wb) /\
  (match_overlaps wa wb = true <->
   exists p, match_accepts (items_view (m_items a)) p /\ match_accepts (items_view (m_items b)) p).
Proof.
  intros Ha Hb. destruct (session_wildcard _ _ Ha) as [a' [wa [Ea [_ [_ Aa]]]]].
  destruct (session_wildcard _ _ Hb) as [b' [wb [Eb [_ [_ Ab]]]]].
  exists a', b', wa, wb. split; [auto|]. split; [auto|]. unfold match_overlaps.
  destruct (Z.eqb_spec (wildcard_intersect wa wb) 0) as [E|E]; cbn [negb].
  - split; [discriminate|]. intros [p [H1 H2]]. apply wildcard_intersect_zero in E. exfalso. apply E.
    exists p. now rewrite Aa, Ab.
  - split; [intros _|auto]. destruct (wildcard_intersect_cases wa wb) as [[Hz E']|[_ E']]; [|congruence].
    destruct (zfree_nonempty _ Hz) as [p Hp]. apply accepts_land in Hp as [H1 H2].
    exists p. rewrite <- Aa, <- Ab. auto.
Qed.

Lemma session_issubset ops a b : In a (s_ms (mrun ops)) -> In b (s_ms (mrun ops)) ->
  exists a' b' wa wb, match_get_wildcard a = Ok (a', wa) /\ match_get_wildcard b = Ok (b', wb) /\
  (match_issubset wa wb = true <->
   forall p, match_accepts (items_view (m_items a)) p -> match_accepts (items_view (m_items b)) p).
Proof.
  intros Ha Hb. destruct (session_wildcard _ _ Ha) as [a' [wa [Ea [Wa [_ Aa]]]]].
  destruct (session_wildcard _ _ Hb) as [b' [wb [Eb [_ [_ Ab]]]]].
  exists a', b', wa, wb. split; [auto|]. split; [auto|]. unfold match_issubset.
  rewrite (subset_spec _ _ Wa). split; intros H p; specialize (H p); rewrite Aa, Ab in *; auto.
Qed.

Lemma session_union_cover ops a b : In a (s_ms (mrun ops)) -> In b (s_ms (mrun ops)) ->
  exists a' b' wa wb r m, match_get_wildcard a = Ok (a', wa) /\ match_get_wildcard b = Ok (b', wb) /\
  match_union_cover (s_reg (mrun ops)) wa wb = Ok (r, m) /\
  (forall p, match_accepts (items_view (m_items a)) p \/ match_accepts (items_view (m_items b)) p ->
             match_accepts (items_view (m_items m)) p) /\
  (forall c, (forall p, match_accepts (items_view (m_items a)) p \/ match_accepts (items_view (m_items b)) p ->
                        match_accepts c p) ->
             forall p, match_accepts (items_view (m_items m)) p -> match_accepts c p).
Proof.
  intros Ha Hb. destruct (session_wildcard _ _ Ha) as [a' [wa [Ea [Wa [Pa Aa]]]]].
  destruct (session_wildcard _ _ Hb) as [b' [wb [Eb [Wb [Pb Ab]]]]].
  destruct (from_wildcard_ok (s_reg (mrun ops)) (wildcard_union_cover wa wb)) as [r [m [E [_ [_ [_ [_ [F _]]]]]]]].
  - apply mrun_ok.
  - now apply union_cover_ok.
  - now apply padding_open_lor.
  - exists a', b', wa, wb, r, m. split; [auto|]. split; [auto|]. split; [exact E|].
    destruct (wildcard_of_match (items_view (m_items m))) as [w [Ew [_ [_ [Aw _]]]]].
    rewrite F in Ew. injection Ew as <-. split.
    + intros p [H|H]; apply Aw; [apply accepts_lor_l|apply accepts_lor_r]; [now apply Aa|now apply Ab].
    + intros c Hc p Hp. destruct (wildcard_of_match c) as [wc [_ [_ [_ [Ac _]]]]].
      apply Ac. apply (union_cover_least wa wb wc); auto.
      * intros q Hq. apply Ac, Hc. left. now apply Aa.
      * intros q Hq. apply Ac, Hc. right. now apply Ab.
      * now apply Aw.
Qed.

Lemma session_intersection_disjoint ops a b : In a (s_ms (mrun ops)) -> In b (s_ms (mrun ops)) ->
  exists a' b' wa wb, match_get_wildcard a = Ok (a', wa) /\ match_get_wildcard b = Ok (b', wb) /\
  ((~ exists p, match_accepts (items_view (m_items a)) p /\ match_accepts (items_view (m_items b)) p) ->
   match_intersection (s_reg (mrun ops)) wa wb = Err KeyError) /\
  ((exists p, match_accepts (items_view (m_items a)) p /\ match_accepts (items_view (m_items b)) p) ->
   exists r m, match_intersection (s_reg (mrun ops)) wa wb = Ok (r, m) /\
   forall p, match_accepts (items_view (m_items m)) p <->
     match_accepts (items_view (m_items a)) p /\ match_accepts (items_view (m_items b)) p).
Proof.
  intros Ha Hb. destruct (session_wildcard _ _ Ha) as [a' [wa [Ea [Wa [Pa Aa]]]]].
  destruct (session_wildcard _ _ Hb) as [b' [wb [Eb [Wb [Pb Ab]]]]].
  exists a', b', wa, wb. split; [auto|]. split; [auto|]. split.
  - intros Hn. assert (E : wildcard_intersect wa wb = 0).
    { apply wildcard_intersect_zero. intros [p Hp]. apply Hn. exists p. now rewrite <- Aa, <- Ab. }
    unfold match_intersection. rewrite E. apply flowmatches_zero.
  - intros [p [H1 H2]]. assert (Hne : wildcard_intersect wa wb <> 0).
    { intros E. apply wildcard_intersect_zero in E. apply E. exists p. now rewrite Aa, Ab. }
    destruct (match_intersection_ok (s_reg (mrun ops)) wa wb) as [r [m [E [_ [_ [_ [_ A]]]]]]]; auto.
    + apply mrun_ok.
    + exists r, m. split; [auto|]. intros q. now rewrite A, Aa, Ab.
Qed.

Lemma session_bookkeeping ops m : In m (s_ms (mrun ops)) ->
  (forall name i b, dict_get (s_reg (mrun ops)) name = Some (i, b) ->
     (Z.testbit (m_required m) i = true <-> In name (map fst (m_items m)))) /\
  (forall w, m_cache m = Some w -> flow_matches_to_wildcard (items_view (m_items m)) = Ok w) /\
  (forall m', In m' (s_ms (mrun ops)) -> match_eqb m m' = true ->
     exists a b w, match_get_wildcard m = Ok (a, w) /\ match_get_wildcard m' = Ok (b, w)).
Proof.
  intros H. assert (Hr := proj1 (mrun_ok ops)). assert (Hm := session_match _ _ H).
  split; [|split].
  - intros name i b E. destruct Hm as [A [B [C [D F]]]].
    rewrite D by (eapply reg_id_nonneg; eauto). split.
    + intros [k [v [mk Hin]]]. destruct (B _ _ _ _ Hin) as [b' Hb'].
      assert (k = name) as -> by (eapply reg_id_inj; eauto).
      apply (in_map fst) in Hin. exact Hin.
    + intros Hin. apply in_map_iff in Hin as [[k [[v mk] id]] [Ek Hin]]. cbn [fst] in Ek. subst k.
      destruct (B _ _ _ _ Hin) as [b' Hb']. rewrite E in Hb'. injection Hb' as -> _. eauto.
  - apply Hm.
  - intros m' H' He. assert (Hm' := session_match _ _ H').
    destruct (match_eq_same_wildcard _ _ _ _ Hm Hm' He) as [w [E1 E2]].
    destruct (match_wildcard_ok _ _ Hm) as [a [wa [Ga [_ [_ [_ [_ [_ [_ [Fa _]]]]]]]]]].
    destruct (match_wildcard_ok _ _ Hm') as [b [wb [Gb [_ [_ [_ [_ [_ [_ [Fb _]]]]]]]]]].
    exists a, b, w. rewrite Fa in E1. rewrite Fb in E2. injection E1 as ->. injection E2 as ->. auto.
Qed.

(** The ids handed out by a history of lookups. *)
Fixpoint lookups (r : registry) (names : list string) : registry * list Z :=
  match names with
  | [] => (r, [])
  | n :: t => let '(r1, i) := oxm_name_to_id r n in let '(r2, is) := lookups r1 t in (r2, i :: is)
  end.
Lemma lookups_ok names : forall r, reg_ok r ->
  let '(r', ids) := lookups r names in
  reg_ok r' /\ (forall k v, dict_get r k = Some v -> dict_get r' k = Some v) /\
  List.length ids = List.length names /\
  forall n i, In (n, i) (combine names ids) -> exists b, dict_get r' n = Some (i, b).
Proof.
  induction names as [|n t IH]; intros r Hr; cbn [lookups].
  - split; [auto|]. split; [auto|]. split; [reflexivity|]. intros n i [].
  - assert (H := oxm_name_to_id_ok r n Hr). destruct (oxm_name_to_id r n) as [r1 i].
    destruct H as [H1 [[b Hb] [Hmono _]]]. specialize (IH r1 H1). destruct (lookups r1 t) as [r2 is].
    destruct IH as [I1 [I2 [I3 I4]]]. split; [auto|]. split; [auto|]. split; [cbn; lia|].
    intros n' i' [[= <- <-]|Hin]; eauto.
Qed.
Lemma reg_id_lt r k i b : reg_ok r -> dict_get r k = Some (i, b) -> 0 <= i < Z.of_nat (List.length r).
Proof.
  intros [_ [Hids _]] H. apply dict_get_in in H. apply (in_map (fun e => fst (snd e))) in H.
  rewrite Hids in H. apply in_map_iff in H as [n [E Hn]]. cbn in E. apply in_seq in Hn. lia.
Qed.
Lemma lookups_ids names : let '(r, ids) := lookups registry_init names in
  List.length ids = List.length names /\
  (forall n n' i i', In (n, i) (combine names ids) -> In (n', i') (combine names ids) -> (i = i' <-> n = n')) /\
  map (fun e => fst (snd e)) r = map Z.of_nat (seq 0 (List.length r)).
Proof.
  assert (H := lookups_ok names registry_init reg_init_ok).
  destruct (lookups registry_init names) as [r ids]. destruct H as [Hr [_ [Hl H]]].
  split; [auto|]. split; [|apply Hr].
  intros n n' i i' Hn Hn'. apply H in Hn as [b Hb]. apply H in Hn' as [b' Hb']. split.
  - intros ->. eapply reg_id_inj; eauto.
  - intros ->. congruence.
Qed.
