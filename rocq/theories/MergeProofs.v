(** Proofs about demotion, simulated egress and merging (C34-C36, C41, C42). *)
From Coq Require Import ZifyBool ZifyNat ZifyN.
From Verif Require Import Merge MatchProofs MatchWcProofs WildcardProofs ActionProofs SpecPipeline.
Local Open Scope string_scope.
Local Open Scope list_scope.
Local Open Scope Z_scope.
Ltac Zify.zify_post_hook ::= Z.div_mod_to_equations.
Local Opaque NB WC_FULLWC layout oxm_fields registry_init.

(** ** A match seen bit by bit *)
Lemma slot_at_in i s : slot_at i = Some s -> In s layout /\ sl_off s <= i < sl_off s + sl_bits s.
Proof. unfold slot_at. intros H. apply find_some in H as [H1 H2]. split; auto. lia. Qed.
Lemma slot_at_some i s : In s layout -> sl_off s <= i < sl_off s + sl_bits s -> slot_at i = Some s.
Proof.
  intros Hs Hi. unfold slot_at. destruct (find _ layout) as [s'|] eqn:E.
  - apply find_some in E as [H1 H2]. destruct (slot_disjoint s s' Hs H1) as [->|D]; [reflexivity|lia].
  - exfalso. apply find_none with (x := s) in E; auto. lia.
Qed.
Lemma slot_at_range i s : slot_at i = Some s -> 0 <= i < NB.
Proof.
  intros H. apply slot_at_in in H as [H1 H2]. assert (Q := slot_range s H1).
  assert (0 <= extra_padding) by (rewrite extra_padding_val; lia). lia.
Qed.

Definition ibit (x : option (Z * option Z * Z)) (j : Z) : option bool :=
  match x with
  | Some (v, mk, _) => if mask_bit mk j then Some (Z.testbit v j) else None
  | None => None
  end.
Definition cbit (m : Match) (i : Z) : option bool :=
  match slot_at i with Some s => ibit (mget m (sl_name s)) (i - sl_off s) | None => None end.

Lemma items_view_in d k v mk : In (k, (v, mk)) (items_view d) <-> exists id, In (k, (v, mk, id)) d.
Proof.
  unfold items_view. rewrite in_map_iff. split.
  - intros ([k' [[v' mk'] id]] & E & H). injection E as -> -> ->. eauto.
  - intros (id & H). exists (k, (v, mk, id)). auto.
Qed.
Definition maccepts (m : Match) (p : packet) : Prop := match_accepts (items_view (m_items m)) p.

Lemma accepts_cbit m p : NoDup (map fst (m_items m)) ->
  (maccepts m p <-> forall i b, cbit m i = Some b -> p i = b).
Proof.
  intros ND. unfold maccepts. split.
  - intros H i b E. unfold cbit in E. destruct (slot_at i) as [s|] eqn:Es; [|discriminate].
    apply slot_at_in in Es as [Hs Hi]. unfold ibit, mget in E.
    destruct (dict_get (m_items m) (sl_name s)) as [[[v mk] id]|] eqn:Eg; [|discriminate].
    destruct (mask_bit mk (i - sl_off s)) eqn:Em; [|discriminate]. injection E as <-.
    apply dict_get_in in Eg. assert (Hv : In (sl_name s, (v, mk)) (items_view (m_items m))) by (apply items_view_in; eauto).
    specialize (H _ Hv s Hs eq_refl (i - sl_off s) ltac:(lia)). cbn [fst snd] in H. unfold field_bit in H.
    replace (sl_off s + (i - sl_off s)) with i in H by lia. apply H. unfold mask_bit in Em. exact Em.
  - intros H [k [v mk]] Hit s Hs Hn j Hj Hm. cbn [fst snd] in *. subst k. unfold field_bit.
    apply items_view_in in Hit as (id & Hin). apply dict_in_get in Hin; auto.
    apply H. unfold cbit. rewrite (slot_at_some _ s) by (auto; lia). unfold ibit, mget. rewrite Hin.
    replace (sl_off s + j - sl_off s) with j by lia. unfold mask_bit. rewrite Hm. reflexivity.
Qed.

Lemma dict_get_set {V} (d : dict V) k v k' : dict_get (dict_set d k v) k' = if String.eqb k k' then Some v else dict_get d k'.
Proof.
  unfold dict_get. induction d as [|[a x] t IH]; cbn [dict_set assoc].
  - reflexivity.
  - destruct (String.eqb_spec a k) as [->|Ha]; cbn [assoc].
    + destruct (String.eqb_spec k k') as [->|]; reflexivity.
    + rewrite IH. destruct (String.eqb_spec a k') as [->|Hk]; [|reflexivity]. destruct (String.eqb_spec k k'); [congruence|reflexivity].
Qed.
Lemma dict_get_del {V} (d : dict V) k k' : NoDup (map fst d) ->
  dict_get (dict_del d k) k' = if String.eqb k k' then None else dict_get d k'.
Proof.
  intros ND. destruct (String.eqb_spec k k') as [->|Hk].
  - apply dict_get_none. rewrite dict_del_keys by auto. tauto.
  - destruct (dict_get d k') as [v|] eqn:E.
    + apply dict_in_get; [now apply dict_del_nodup|]. apply dict_del_in; auto. split; [congruence|]. now apply dict_get_in.
    + apply dict_get_none. apply dict_get_none in E. rewrite dict_del_keys by auto. tauto.
Qed.

(** the registry only grows *)
Definition rle (r r' : registry) : Prop := forall k x, dict_get r k = Some x -> dict_get r' k = Some x.
Lemma rle_refl r : rle r r. Proof. intros k x H. exact H. Qed.
Lemma rle_trans a b c : rle a b -> rle b c -> rle a c. Proof. intros H1 H2 k x H. auto. Qed.

(** a computation that succeeds, with what is known of the state and the value *)
Definition runs {A} (c : st A) (r : registry) (post : registry -> A -> Prop) : Prop :=
  exists r' a, c r = (r', Ok a) /\ reg_ok r' /\ rle r r' /\ post r' a.
Lemma runs_ret {A} (a : A) r (post : registry -> A -> Prop) : reg_ok r -> post r a -> runs (sret a) r post.
Proof. intros H1 H2. exists r, a. split; [reflexivity|]. split; auto. split; [apply rle_refl|auto]. Qed.
Lemma runs_bind {A B} (c : st A) (f : A -> st B) r post post' :
  runs c r post -> (forall r' a, reg_ok r' -> rle r r' -> post r' a -> runs (f a) r' post') -> runs (sbind c f) r post'.
Proof.
  intros (r1 & a & E & R1 & L1 & P) H. destruct (H r1 a R1 L1 P) as (r2 & b & E2 & R2 & L2 & P2).
  exists r2, b. unfold sbind. rewrite E. split; auto. split; auto. split; auto. eapply rle_trans; eauto.
Qed.
Lemma runs_weaken {A} (c : st A) r (post post' : registry -> A -> Prop) :
  runs c r post -> (forall r' a, reg_ok r' -> rle r r' -> post r' a -> post' r' a) -> runs c r post'.
Proof. intros (r1 & a & E & R & L & P) H. exists r1, a. auto 10. Qed.
Lemma runs_lift {A} (x : result A) a r (post : registry -> A -> Prop) : x = Ok a -> reg_ok r -> post r a -> runs (slift x) r post.
Proof. intros -> H1 H2. exists r, a. split; [reflexivity|]. split; auto. split; [apply rle_refl|auto]. Qed.
(** decomposition of a run that is known to succeed *)
Lemma sbind_ok {A B} (c : st A) (f : A -> st B) r r' b : sbind c f r = (r', Ok b) -> exists r1 a, c r = (r1, Ok a) /\ f a r1 = (r', Ok b).
Proof. unfold sbind. destruct (c r) as [r1 [a|e]]; intros H; [eauto|discriminate H]. Qed.

(** append *)
Lemma append_norm_bit s v mk v' mk' j : append_norm (Some (sl_bits s)) v mk = (v', mk') -> 0 < sl_bits s -> 0 <= j < sl_bits s ->
  ibit (Some (v', mk', 0)) j = ibit (Some (v, mk, 0)) j.
Proof.
  intros E Hs Hj. unfold append_norm in E. destruct mk as [k|]; [|injection E as <- <-; reflexivity].
  destruct ((sl_bits s =? 0) || (k =? 0)) eqn:E0; [injection E as <- <-; reflexivity|].
  injection E as <- <-. unfold ibit, mask_bit.
  assert (Eo : 2 ^ sl_bits s - 1 = Z.ones (sl_bits s)) by (rewrite Z.ones_equiv; lia). rewrite Eo.
  assert (Bk : Z.testbit (Z.land k (Z.ones (sl_bits s))) j = Z.testbit k j).
  { rewrite Z.land_spec, Z.ones_spec_low by lia. apply andb_true_r. }
  destruct (Z.land k (Z.ones (sl_bits s)) =? Z.ones (sl_bits s)) eqn:Em.
  - apply Z.eqb_eq in Em. rewrite Em in *. rewrite Z.ones_spec_low in Bk by lia. rewrite <- Bk.
    rewrite Z.land_spec, Z.ones_spec_low by lia. now rewrite andb_true_r.
  - rewrite Bk. destruct (Z.testbit k j) eqn:Ek; [|reflexivity]. rewrite Z.land_spec, Bk, andb_true_r. reflexivity.
Qed.
Lemma ibit_id v mk id id' j : ibit (Some (v, mk, id)) j = ibit (Some (v, mk, id')) j.
Proof. reflexivity. Qed.

(** what [append] leaves for a name *)
Definition stored (name : string) (v : Z) (mk : option Z) (x : Z * option Z * Z) : Prop :=
  let '(v', mk', _) := x in
  (mk = None -> v' = v /\ mk' = None) /\
  (forall s, In s layout -> sl_name s = name -> forall j, 0 <= j < sl_bits s -> ibit (Some x) j = ibit (Some (v, mk, 0)) j).

Lemma append_runs r m name v mk : reg_ok r -> match_ok r m ->
  runs (s_append m name v mk) r (fun r' m' => match_ok r' m' /\
    (exists x, stored name v mk x /\ forall n, mget m' n = if String.eqb name n then Some x else mget m n)).
Proof.
  intros Hr Hm. unfold s_append. assert (H := match_append_ok r m name v mk Hr Hm).
  destruct (match_append r m name v mk) as [r' m'] eqn:E. destruct H as (H1 & H2 & H3).
  exists r', m'. unfold runs. rewrite E. split; [reflexivity|]. split; auto. split; [exact H3|]. split; auto.
  unfold match_append in E. assert (Hid := oxm_name_to_id_ok r name Hr).
  destruct (oxm_name_to_id r name) as [r1 id]. destruct Hid as [Hr' [[b Hid] _]]. rewrite Hid in E.
  destruct (append_norm b v mk) as [v' mk'] eqn:En. injection E as <- <-.
  exists (v', mk', id). split.
  - split.
    + intros ->. unfold append_norm in En. destruct b; injection En as <- <-; auto.
    + intros s Hs Hn j Hj. destruct (reg_bits_known r1 name s Hr' Hs Hn) as [i2 Hb]. rewrite Hid in Hb. injection Hb as _ ->.
      rewrite (ibit_id v' mk' id 0). eapply append_norm_bit; eauto. destruct (slot_range s Hs). lia.
  - intros n. unfold mget. cbn [m_items]. apply dict_get_set.
Qed.
Lemma del_runs r m name : reg_ok r -> match_ok r m -> mhas m name = true ->
  runs (s_del m name) r (fun r' m' => match_ok r' m' /\ forall n, mget m' n = if String.eqb name n then None else mget m n).
Proof.
  intros Hr Hm Hh. unfold s_del. assert (H := match_del_ok r m name Hr Hm).
  unfold mhas, mget in Hh. unfold match_del in *. destruct (dict_get (m_items m) name) as [[[v mk] id]|] eqn:E; [|discriminate].
  eapply runs_lift; [reflexivity|auto|]. cbn [fst] in H. split; auto. intros n. unfold mget. cbn [m_items]. apply dict_get_del. apply Hm.
Qed.

(** ** Rewriting bit by bit *)
Definition ov (new old : option bool) : option bool := match new with Some b => Some b | None => old end.
Definition rset (f : string) (v : Z) (mk : option Z) (i : Z) : option bool :=
  match slot_at i with
  | Some s => if String.eqb (sl_name s) f && mask_bit mk (i - sl_off s) then Some (Z.testbit v (i - sl_off s)) else None
  | None => None
  end.
Definition apply_rw (rw : Z -> option bool) (p : packet) : packet := fun i => match rw i with Some b => b | None => p i end.
Definition ract (a : action) (i : Z) : option bool :=
  if String.eqb (fst a) "SET_FIELD" then
    match snd a with VSet f v => rset f (vid_value f v) None i | _ => None end
  else None.
Fixpoint racts (l : list action) (acc : Z -> option bool) : Z -> option bool :=
  match l with [] => acc | a :: t => racts t (fun i => ov (ract a i) (acc i)) end.
Definition rmeta (wm : option (Z * option Z)) (i : Z) : option bool :=
  match wm with Some (v, mk) => rset "METADATA" v mk i | None => None end.
Definition none_rw : Z -> option bool := fun _ => None.
Definition rinst (i : instructions) (k : Z) : option bool :=
  ov (rmeta (write_metadata i) k) (racts (orig_order (apply_actions i)) none_rw k).

Lemma write_field_rw f v mk p i : write_field f v mk p i = apply_rw (rset f v mk) p i.
Proof.
  unfold write_field, apply_rw, rset, mask_bit. destruct (slot_at i) as [s|]; [|reflexivity].
  destruct (String.eqb (sl_name s) f && _); reflexivity.
Qed.
Lemma act_header_set f v p : act_header ("SET_FIELD", VSet f v) p = write_field f (vid_value f v) None p.
Proof. reflexivity. Qed.
Lemma act_header_other a p : fst a <> "SET_FIELD" -> act_header a p = p.
Proof.
  destruct a as [n v]. cbn [fst]. intros H. unfold act_header.
  repeat (match goal with |- context [match ?x with _ => _ end] => is_var x; destruct x end; try reflexivity);
  exfalso; apply H; reflexivity.
Qed.
Lemma act_header_rw a p i : act_header a p i = apply_rw (ract a) p i.
Proof.
  destruct (String.eqb_spec (fst a) "SET_FIELD") as [E|E].
  - destruct a as [n v]. cbn [fst] in E. subst n. unfold ract, apply_rw. cbn [fst snd]. rewrite String.eqb_refl.
    destruct v as [|z|f v|t b]; try reflexivity. rewrite act_header_set. apply write_field_rw.
  - rewrite act_header_other by auto. unfold apply_rw, ract. destruct (String.eqb_spec (fst a) "SET_FIELD"); [contradiction|reflexivity].
Qed.
Lemma acts_header_rw l : forall p acc q, (forall i, q i = apply_rw acc p i) ->
  forall i, acts_header l q i = apply_rw (racts l acc) p i.
Proof.
  induction l as [|a t IH]; intros p acc q H i; [apply H|]. cbn [racts]. unfold acts_header. cbn [fold_left].
  apply IH. intros k. rewrite act_header_rw. unfold apply_rw. destruct (ract a k); cbn [ov]; [reflexivity|apply H].
Qed.
Lemma inst_header_rw i p k : inst_header i p k = apply_rw (rinst i) p k.
Proof.
  unfold inst_header, rinst. assert (Q := acts_header_rw (orig_order (apply_actions i)) p none_rw p (fun _ => eq_refl)).
  unfold metadata_header, rmeta, apply_rw in *. destruct (write_metadata i) as [[v mk]|].
  - rewrite write_field_rw. unfold apply_rw. destruct (rset "METADATA" v mk k); cbn [ov]; [reflexivity|apply Q].
  - cbn [ov]. apply Q.
Qed.

(** acceptance of a match under a rewrite *)
Lemma maccepts_ext m p q : (forall i, p i = q i) -> maccepts m p -> maccepts m q.
Proof. intros H A it Hit s Hs Hn j Hj Hm. unfold field_bit. rewrite <- H. now apply (A it Hit s Hs Hn j Hj Hm). Qed.

Lemma racts_acc l : forall acc i, racts l acc i = ov (racts l none_rw i) (acc i).
Proof.
  induction l as [|a t IH]; intros acc i; cbn [racts]; [reflexivity|]. rewrite IH, (IH (fun i => ov (ract a i) (none_rw i))).
  destruct (racts t none_rw i); cbn [ov]; [reflexivity|]. destruct (ract a i); reflexivity.
Qed.
Lemma racts_app l l' acc i : racts (l ++ l') acc i = racts l' (racts l acc) i.
Proof. revert acc. induction l as [|a t IH]; intros acc; cbn [racts app]; auto. Qed.

(** ** Simulated egress of rules without pushes and pops *)
Lemma find_tun_name key n l t : find_tun key n l = Some t -> In t l /\ key t = n.
Proof.
  induction l as [|u r IH]; cbn [find_tun]; [discriminate|]. destruct (String.eqb_spec (key u) n) as [E|E].
  - intros [= <-]. split; [now left|auto].
  - intros H. destruct (IH H). split; [now right|auto].
Qed.
Lemma plain_no_push a : plain_act a -> push_of a = None.
Proof.
  intros [H _]. unfold push_of. destruct (find_tun tun_push (fst a) tunnels) as [t|] eqn:E; [|reflexivity].
  apply find_tun_name in E as [Ht E]. exfalso. apply H. rewrite <- E. unfold tag_names, tunnels in *. cbn [In] in *.
  destruct Ht as [<-|[<-|[<-|[]]]]; cbn [tun_push]; tauto.
Qed.
Lemma plain_no_pop a : plain_act a -> pop_of a = None.
Proof.
  intros [H _]. unfold pop_of. destruct (find_tun tun_pop (fst a) tunnels) as [t|] eqn:E; [|reflexivity].
  apply find_tun_name in E as [Ht E]. exfalso. apply H. rewrite <- E. unfold tag_names, tunnels in *. cbn [In] in *.
  destruct Ht as [<-|[<-|[<-|[]]]]; cbn [tun_pop]; tauto.
Qed.

Lemma cbit_upd m m' name v mk x i : stored name v mk x ->
  (forall n, mget m' n = if String.eqb name n then Some x else mget m n) -> mk = None ->
  cbit m' i = ov (rset name v mk i) (cbit m i).
Proof.
  intros Hx H ->. unfold cbit, rset. destruct (slot_at i) as [s|] eqn:Es; [|reflexivity].
  rewrite H, String.eqb_sym. destruct (String.eqb_spec (sl_name s) name) as [E|E]; cbn [andb]; [|reflexivity].
  apply slot_at_in in Es as [Hs Hi]. destruct x as [[v' mk'] id]. destruct Hx as [_ Hx].
  rewrite (Hx s Hs E) by lia. reflexivity.
Qed.

Record sim_inv (r : registry) (m0 : Match) (A : Z -> option bool) (e : egress) : Prop := mkSI {
  si_sim : match_ok r (eg_sim e); si_rew : match_ok r (eg_rew e);
  si_bit : forall i, cbit (eg_sim e) i = ov (A i) (cbit m0 i);
  si_rbit : forall i, cbit (eg_rew e) i = A i;
  si_mask : forall n v mk id, mget (eg_rew e) n = Some (v, mk, id) -> mk = None;
  si_meta : mget (eg_rew e) "METADATA" = None;
  si_smeta : mget (eg_sim e) "METADATA" = mget m0 "METADATA";
  si_ops : eg_ops e = [] }.

Lemma sim_set_runs r m0 A e f v : reg_ok r -> sim_inv r m0 A e -> f <> "METADATA" ->
  runs (sim_set e f v) r (fun r' e' => sim_inv r' m0 (fun i => ov (rset f (vid_value f v) None i) (A i)) e').
Proof.
  intros Hr Hi Hf. unfold sim_set.
  eapply runs_bind; [apply append_runs; [auto|apply Hi]|]. intros r1 s R1 L1 (Hs & x & Hx & Gx).
  eapply runs_bind; [apply append_runs; [auto|eapply match_ok_mono; [exact L1|apply Hi]]|]. intros r2 w R2 L2 (Hw & y & Hy & Gy).
  apply runs_ret; auto. constructor; cbn [eg_sim eg_rew eg_ops].
  - eapply match_ok_mono; [exact L2|auto].
  - auto.
  - intros i. rewrite (cbit_upd _ s _ _ _ _ i Hx Gx eq_refl), (si_bit _ _ _ _ Hi). destruct (rset f (vid_value f v) None i); reflexivity.
  - intros i. rewrite (cbit_upd _ w _ _ _ _ i Hy Gy eq_refl), (si_rbit _ _ _ _ Hi). reflexivity.
  - intros n v0 mk id H. rewrite Gy in H. destruct (String.eqb f n); [|eapply si_mask; eauto].
    injection H as ->. destruct Hy as [Hy _]. now destruct Hy.
  - rewrite Gy. destruct (String.eqb_spec f "METADATA"); [contradiction|apply Hi].
  - rewrite Gx. destruct (String.eqb_spec f "METADATA"); [contradiction|apply Hi].
  - apply Hi.
Qed.
Lemma sim_inv_mono r r' m0 A A' e : rle r r' -> (forall i, A i = A' i) -> sim_inv r m0 A e -> sim_inv r' m0 A' e.
Proof.
  intros L HA H. destruct H as [H1 H2 H3 H4 H5 H6 H7 H8]. constructor; auto; try (eapply match_ok_mono; [exact L|assumption]).
  - intros i. rewrite <- HA. auto.
  - intros i. rewrite <- HA. auto.
Qed.
Lemma sim_plain_runs l : forall r m0 A e, plain_acts l -> reg_ok r -> sim_inv r m0 A e ->
  runs (sfold sim_action l e) r (fun r' e' => sim_inv r' m0 (racts l A) e').
Proof.
  induction l as [|a t IH]; intros r m0 A e Hp Hr Hi; cbn [sfold racts].
  - now apply runs_ret.
  - inversion Hp as [|? ? Ha Ht]; subst. eapply runs_bind with (post := fun r' e' => sim_inv r' m0 (fun i => ov (ract a i) (A i)) e').
    + unfold sim_action, ract. destruct (String.eqb_spec (fst a) "SET_FIELD") as [E|E].
      * destruct (proj2 Ha E) as (f & v & -> & Hf). now apply sim_set_runs.
      * rewrite (plain_no_push a Ha), (plain_no_pop a Ha). now apply runs_ret.
    + intros r1 e1 R1 L1 P1. now apply IH.
Qed.
Lemma racts_meta l i s : plain_acts l -> slot_at i = Some s -> sl_name s = "METADATA" -> racts l none_rw i = None.
Proof.
  intros Hp Hs Hn. enough (G : forall acc, acc i = None -> racts l acc i = None) by (apply G; reflexivity).
  induction l as [|a t IH]; intros acc Ha; cbn [racts]; auto. inversion Hp as [|? ? Ha' Ht]; subst. apply IH; auto.
  unfold ract. destruct (String.eqb_spec (fst a) "SET_FIELD") as [E|E]; [|exact Ha].
  destruct (proj2 Ha' E) as (f & v & -> & Hf). unfold rset. rewrite Hs, Hn.
  destruct (String.eqb_spec "METADATA" f); [congruence|]. exact Ha.
Qed.

(** the whole egress *)
Record egress_ok (r : registry) (m0 : Match) (rw : Z -> option bool) (e : egress) : Prop := mkEO {
  eo_sim : match_ok r (eg_sim e); eo_rew : match_ok r (eg_rew e);
  eo_bit : forall k, cbit (eg_sim e) k = ov (rw k) (cbit m0 k);
  eo_rbit : forall k, cbit (eg_rew e) k = rw k;
  eo_mask : forall n v mk id, n <> "METADATA" -> mget (eg_rew e) n = Some (v, mk, id) -> mk = None;
  eo_ops : eg_ops e = [] }.

Lemma cbit_eq m i s : slot_at i = Some s -> cbit m i = ibit (mget m (sl_name s)) (i - sl_off s).
Proof. intros H. unfold cbit. now rewrite H. Qed.
Lemma sim_meta_runs r m0 A e wm : reg_ok r -> sim_inv r m0 A e ->
  (forall i s, slot_at i = Some s -> sl_name s = "METADATA" -> A i = None) ->
  runs (sim_metadata e wm) r (fun r' e' => egress_ok r' m0 (fun k => ov (rmeta wm k) (A k)) e').
Proof.
  intros Hr Hi HA. unfold sim_metadata. destruct wm as [[wv wk]|]; cbn [rmeta].
  2:{ apply runs_ret; auto. destruct Hi. constructor; auto. intros n v mk id _ H. eauto. }
  eapply runs_bind with (post := fun r' s => match_ok r' s /\ forall i, cbit s i = ov (rset "METADATA" wv wk i) (cbit (eg_sim e) i)).
  - destruct (mget (eg_sim e) "METADATA") as [[[mv mk] mid]|] eqn:Em.
    + destruct wk as [wk|].
      * eapply runs_weaken; [apply append_runs; [auto|apply Hi]|]. intros r1 s R1 L1 (Hs & x & Hx & Gx). split; auto.
        intros i. unfold rset. destruct (slot_at i) as [sl|] eqn:Es; [|unfold cbit; rewrite Es; reflexivity].
        rewrite !(cbit_eq _ _ _ Es), Gx, String.eqb_sym. destruct (String.eqb_spec (sl_name sl) "METADATA") as [E|E]; cbn [andb ov]; [|reflexivity].
        rewrite E, Em. apply slot_at_in in Es as [Hs1 Hi1]. destruct x as [[v' mk'] id']. destruct Hx as [_ Hx]. rewrite (Hx sl Hs1 E) by lia.
        assert (Bv : Z.testbit (Z.lor (Z.land wv wk) (Z.land (Z.lnot wk) mv)) (i - sl_off sl) =
                     if Z.testbit wk (i - sl_off sl) then Z.testbit wv (i - sl_off sl) else Z.testbit mv (i - sl_off sl)).
        { rewrite Z.lor_spec, !Z.land_spec, Z.lnot_spec by lia. destruct (Z.testbit wk _), (Z.testbit wv _), (Z.testbit mv _); reflexivity. }
        cbn [ibit mask_bit]. rewrite Bv. destruct mk as [mk|]; cbn [mask_bit].
        -- rewrite Z.lor_spec. destruct (Z.testbit wk _), (Z.testbit mk _); reflexivity.
        -- destruct (Z.testbit wk _); reflexivity.
      * eapply runs_weaken; [apply append_runs; [auto|apply Hi]|]. intros r1 s R1 L1 (Hs & x & Hx & Gx). split; auto.
        intros i. now rewrite (cbit_upd _ s _ _ _ _ i Hx Gx eq_refl).
    + eapply runs_weaken; [apply append_runs; [auto|apply Hi]|]. intros r1 s R1 L1 (Hs & x & Hx & Gx). split; auto.
      intros i. unfold rset. destruct (slot_at i) as [sl|] eqn:Es; [|unfold cbit; rewrite Es; reflexivity].
      rewrite !(cbit_eq _ _ _ Es), Gx, String.eqb_sym. destruct (String.eqb_spec (sl_name sl) "METADATA") as [E|E]; cbn [andb ov]; [|reflexivity].
      rewrite E, Em. apply slot_at_in in Es as [Hs1 Hi1]. destruct x as [[v' mk'] id']. destruct Hx as [_ Hx]. rewrite (Hx sl Hs1 E) by lia.
      cbn [ibit]. destruct (mask_bit wk (i - sl_off sl)); reflexivity.
  - intros r1 s R1 L1 (Hs & Bs).
    eapply runs_bind; [apply append_runs; [auto|eapply match_ok_mono; [exact L1|apply Hi]]|]. intros r2 w R2 L2 (Hw & y & Hy & Gy).
    apply runs_ret; auto. constructor; cbn [eg_sim eg_rew eg_ops].
    + eapply match_ok_mono; [exact L2|auto].
    + auto.
    + intros k. rewrite Bs, (si_bit _ _ _ _ Hi). destruct (rset "METADATA" wv wk k); reflexivity.
    + intros k. unfold rset. destruct (slot_at k) as [sl|] eqn:Es.
      * rewrite (cbit_eq _ _ _ Es), Gy, String.eqb_sym. destruct (String.eqb_spec (sl_name sl) "METADATA") as [E|E]; cbn [andb ov].
        -- rewrite (HA k sl Es E). apply slot_at_in in Es as [Hs1 Hi1]. destruct y as [[v' mk'] id']. destruct Hy as [_ Hy]. rewrite (Hy sl Hs1 E) by lia.
           cbn [ibit]. destruct (mask_bit wk (k - sl_off sl)); reflexivity.
        -- rewrite <- (cbit_eq _ _ _ Es). apply Hi.
      * cbn [ov]. rewrite <- (si_rbit _ _ _ _ Hi k). unfold cbit. now rewrite Es.
    + intros n v mk id Hn H. rewrite Gy in H. destruct (String.eqb_spec "METADATA" n); [congruence|]. eapply si_mask; eauto.
    + apply Hi.
Qed.

(** reordering independent actions does not change the rewrite *)
Lemma field_deps_self : forallb (fun e : string * list atype => type_in (TSet (fst e)) (snd e)) field_deps = true.
Proof. vm_compute. reflexivity. Qed.
Lemma sassoc_in {V} k (l : list (string * V)) v : sassoc k l = Some v -> In (k, v) l.
Proof.
  induction l as [|[a x] t IH]; cbn [sassoc]; [discriminate|]. destruct (String.eqb_spec a k) as [->|]; [intros [= ->]; now left|right; auto].
Qed.
Lemma set_self_depends f v w : depends ("SET_FIELD", VSet f v) ("SET_FIELD", VSet f w) <> Ok false.
Proof.
  unfold depends, to_type. cbn [fst snd]. rewrite String.eqb_refl. cbn [rbind]. unfold action_dependancies.
  destruct (sassoc f field_deps) as [l|] eqn:E; cbn [rbind]; [|discriminate].
  apply sassoc_in in E. assert (H := field_deps_self). rewrite forallb_forall in H. specialize (H _ E). cbn [fst snd] in H. rewrite H.
  cbn [andb orb]. destruct (type_in (TName "SET_FIELD") l || type_in (TName "SET_FIELD") l); discriminate.
Qed.
Lemma act_ind_ract a b i o : act_ind a b -> ov (ract b i) (ov (ract a i) o) = ov (ract a i) (ov (ract b i) o).
Proof.
  intros H. unfold ract. destruct (String.eqb_spec (fst a) "SET_FIELD") as [Ea|]; [|reflexivity].
  destruct (String.eqb_spec (fst b) "SET_FIELD") as [Eb|]; [|reflexivity].
  destruct a as [na va], b as [nb vb]. cbn [fst snd] in *. subst na nb.
  destruct va as [|z|f v|t bk]; try reflexivity. destruct vb as [|z|g w|t bk]; try reflexivity.
  destruct (String.string_dec f g) as [->|Hf]; [exfalso; eapply set_self_depends; exact H|].
  unfold rset. destruct (slot_at i) as [s|]; [|reflexivity].
  destruct (String.eqb_spec (sl_name s) f) as [E|]; cbn [andb ov]; [|reflexivity].
  destruct (String.eqb_spec (sl_name s) g) as [E'|]; cbn [andb ov]; [congruence|reflexivity].
Qed.
Lemma racts_ext l : forall acc acc' i, acc i = acc' i -> racts l acc i = racts l acc' i.
Proof. intros acc acc' i H. rewrite racts_acc, (racts_acc l acc'), H. reflexivity. Qed.
Lemma teq_racts l l' : teq l l' -> forall acc i, racts l acc i = racts l' acc i.
Proof.
  induction 1 as [l|l a b r H|l m r H1 IH1 H2 IH2]; intros acc i; [reflexivity| |now rewrite IH1].
  rewrite !racts_app. cbn [racts]. apply racts_ext. now apply act_ind_ract.
Qed.
Lemma teq_plain l l' : teq l l' -> plain_acts l -> plain_acts l'.
Proof. intros H Hp. unfold plain_acts in *. rewrite Forall_forall in *. intros x Hx. apply Hp. now rewrite (ateq_perm _ _ H). Qed.

Definition inst_ok (i : instructions) : Prop := al_ok (apply_actions i) (orig_order (apply_actions i)).

Lemma egress_runs r m i : reg_ok r -> match_ok r m -> inst_ok i -> plain_acts (orig_order (apply_actions i)) ->
  runs (simulated_egress m i None) r (fun r' e => egress_ok r' m (rinst i) e).
Proof.
  intros Hr Hm Hi Hp. unfold simulated_egress.
  eapply runs_bind with (post := fun r' s => s = m /\ r' = r); [apply runs_ret; auto|]. intros r1 s R1 L1 [-> ->].
  assert (T := al_ok_iter _ _ Hi).
  eapply runs_bind.
  - apply sim_plain_runs with (m0 := m) (A := none_rw); [eapply teq_plain; eauto|auto|].
    constructor; cbn [eg_sim eg_rew eg_ops]; auto; try reflexivity.
    + apply match_new_ok.
    + intros k. unfold cbit. destruct (slot_at k); reflexivity.
    + discriminate.
  - intros r2 e R2 L2 P2. eapply runs_weaken; [apply sim_meta_runs with (A := racts (orig_order (apply_actions i)) none_rw); [auto| |]|].
    + eapply sim_inv_mono; [apply rle_refl| |exact P2]. intros k. symmetry. now apply teq_racts.
    + intros k s Hs Hn. eapply racts_meta; eauto.
    + auto.
Qed.

(** ** The rest of the second match *)
Lemma del_all_runs r l : forall m, reg_ok r -> match_ok r m -> NoDup l -> (forall k, In k l -> mhas m k = true) ->
  exists m', match_del_all m l = Ok m' /\ match_ok r m' /\ forall n, mget m' n = if existsb (String.eqb n) l then None else mget m n.
Proof.
  induction l as [|k t IH]; intros m Hr Hm ND Hl; cbn [match_del_all existsb].
  - exists m. auto.
  - inversion ND as [|? ? Hk NDt]; subst.
    assert (Hd := match_del_ok r m k Hr Hm). assert (Hh := Hl k (or_introl eq_refl)). unfold mhas, mget in Hh.
    unfold match_del in *. destruct (dict_get (m_items m) k) as [[[v mk] id]|] eqn:E; [|discriminate]. cbn [fst] in Hd.
    match goal with |- context [match_del_all ?x t] => set (m1 := x) in * end.
    assert (G : forall n, mget m1 n = if String.eqb k n then None else mget m n).
    { intros n. unfold mget, m1. cbn [m_items]. apply dict_get_del. apply Hm. }
    destruct (IH m1 Hr Hd NDt) as (m' & E' & M' & G').
    { intros n Hn. unfold mhas. rewrite G. destruct (String.eqb_spec k n) as [->|]; [contradiction|]. apply Hl. now right. }
    exists m'. split; auto. split; auto. intros n. rewrite G', G, (String.eqb_sym n k).
    destruct (existsb (String.eqb n) t); [destruct (String.eqb k n); reflexivity|]. destruct (String.eqb k n); reflexivity.
Qed.
Lemma mhas_keys m n : mhas m n = true <-> In n (mkeys m).
Proof.
  unfold mhas, mget, mkeys. destruct (dict_get (m_items m) n) as [x|] eqn:E.
  - split; [intros _|auto]. apply dict_get_in in E. apply (in_map fst) in E. exact E.
  - apply dict_get_none in E. split; [discriminate|contradiction].
Qed.
Lemma existsb_eqb n l : existsb (String.eqb n) l = true <-> In n l.
Proof.
  rewrite existsb_exists. split; [intros (x & H & E); apply String.eqb_eq in E; congruence|intros H; exists n; split; auto; apply String.eqb_refl].
Qed.

Lemma second_runs r r0 m0 rw e m2 : reg_ok r -> egress_ok r m0 rw e -> match_ok r0 m2 -> rle r0 r ->
  runs (second_match m2 (eg_rew e)) r (fun r' m' => match_ok r' m' /\
    (forall i, cbit m' i = match rw i with Some _ => None | None => cbit m2 i end) /\
    (forall n, mhas m' n = true -> mhas m2 n = true) /\
    (forall n, n <> "METADATA" -> mget m' n = if mhas (eg_rew e) n then None else mget m2 n)).
Proof.
  intros Hr He Hm2 L0. assert (Hm := match_ok_mono _ _ _ L0 Hm2). unfold second_match.
  set (rem := filter _ (mkeys (eg_rew e))).
  destruct (del_all_runs r rem m2 Hr Hm) as (m1 & E1 & M1 & G1).
  { apply NoDup_filter. apply He. }
  { intros k Hk. apply filter_In in Hk as [_ Hk]. apply andb_true_iff in Hk. tauto. }
  eapply runs_bind with (post := fun r' m => m = m1 /\ r' = r); [eapply runs_lift; eauto|].
  intros r' m' _ _ [-> ->].
  (* the deleted names *)
  assert (Hrem : forall n, existsb (String.eqb n) rem = mhas (eg_rew e) n && mhas m2 n && negb (String.eqb n "METADATA")).
  { intros n. destruct (existsb (String.eqb n) rem) eqn:En.
    - apply existsb_eqb in En. apply filter_In in En as [En1 En2]. apply mhas_keys in En1. now rewrite En1.
    - destruct (mhas (eg_rew e) n) eqn:Er; [|reflexivity]. cbn [andb].
      destruct (mhas m2 n && negb (String.eqb n "METADATA")) eqn:Eb; [|reflexivity].
      assert (Hin : In n rem) by (apply filter_In; split; [now apply mhas_keys|auto]). apply existsb_eqb in Hin. congruence. }
  (* outside the metadata *)
  assert (Hout : forall i s, slot_at i = Some s -> sl_name s <> "METADATA" -> forall m', mget m' (sl_name s) = mget m1 (sl_name s) ->
     cbit m' i = match rw i with Some _ => None | None => cbit m2 i end).
  { intros i s Hs Hn m' Hg. rewrite (cbit_eq _ _ _ Hs), Hg, G1, Hrem, <- (eo_rbit _ _ _ _ He i), !(cbit_eq _ _ _ Hs).
    destruct (String.eqb_spec (sl_name s) "METADATA"); [contradiction|]. cbn [negb]. rewrite andb_true_r.
    unfold mhas. destruct (mget (eg_rew e) (sl_name s)) as [[[v mk] id]|] eqn:Eg; cbn [andb].
    - rewrite (eo_mask _ _ _ _ He _ _ _ _ Hn Eg). cbn [ibit mask_bit].
      destruct (mget m2 (sl_name s)) as [x|]; reflexivity.
    - cbn [ibit]. reflexivity. }
  assert (Gm : mget m1 "METADATA" = mget m2 "METADATA").
  { rewrite G1, Hrem. rewrite String.eqb_refl. cbn [negb]. rewrite andb_false_r. reflexivity. }
  assert (Hk : forall n, mhas m1 n = true -> mhas m2 n = true).
  { intros n. unfold mhas. rewrite G1. destruct (existsb (String.eqb n) rem); [discriminate|auto]. }
  assert (Hx : forall m', (forall n, n <> "METADATA" -> mget m' n = mget m1 n) -> forall n, n <> "METADATA" -> mget m' n = if mhas (eg_rew e) n then None else mget m2 n).
  { intros m' H n Hn. rewrite H, G1, Hrem, (proj2 (String.eqb_neq _ _) Hn) by auto. cbn [negb]. rewrite andb_true_r. destruct (mhas (eg_rew e) n); cbn [andb]; [|reflexivity].
    destruct (mhas m2 n) eqn:E; [reflexivity|]. unfold mhas in E. destruct (mget m2 n); [discriminate|reflexivity]. }
  unfold second_metadata. destruct (mget m1 "METADATA") as [[[v mm] mid]|] eqn:Em.
  2:{ apply runs_ret; auto. split; auto. split; [|split; [auto|now apply Hx]]. intros i. destruct (slot_at i) as [s|] eqn:Es.
      - destruct (String.string_dec (sl_name s) "METADATA") as [E|E]; [|eapply Hout; eauto].
        rewrite !(cbit_eq _ _ _ Es), E, Em, <- Gm. cbn [ibit]. destruct (rw i); reflexivity.
      - unfold cbit. rewrite Es. destruct (rw i); reflexivity. }
  destruct (mget (eg_rew e) "METADATA") as [[[rv rk] rid]|] eqn:Er.
  2:{ apply runs_ret; auto. split; auto. split; [|split; [auto|now apply Hx]]. intros i. destruct (slot_at i) as [s|] eqn:Es.
      - destruct (String.string_dec (sl_name s) "METADATA") as [E|E]; [|eapply Hout; eauto].
        rewrite <- (eo_rbit _ _ _ _ He i). rewrite !(cbit_eq _ _ _ Es), E, Er, Em, <- Gm. reflexivity.
      - unfold cbit. rewrite Es. destruct (rw i); reflexivity. }
  assert (Hdel : (forall i s, slot_at i = Some s -> sl_name s = "METADATA" -> rw i = None -> cbit m2 i = None) ->
     runs (s_del m1 "METADATA") r (fun r' m' => match_ok r' m' /\
        (forall i, cbit m' i = match rw i with Some _ => None | None => cbit m2 i end) /\ (forall n, mhas m' n = true -> mhas m2 n = true) /\
        (forall n, n <> "METADATA" -> mget m' n = if mhas (eg_rew e) n then None else mget m2 n))).
  { intros Hrw. eapply runs_weaken; [apply del_runs; auto; unfold mhas; now rewrite Em|].
    intros r1 m3 R1 L1 (M3 & G3). split; auto. split; [|split; [|apply Hx; intros n Hn; rewrite G3, (proj2 (String.eqb_neq _ _) (not_eq_sym Hn)); reflexivity]].
    - intros i. destruct (slot_at i) as [s|] eqn:Es.
      + destruct (String.string_dec (sl_name s) "METADATA") as [E|E].
        * destruct (rw i) eqn:Ew.
          -- rewrite (cbit_eq _ _ _ Es), E, G3, String.eqb_refl. reflexivity.
          -- rewrite (Hrw i s Es E Ew), (cbit_eq _ _ _ Es), E, G3, String.eqb_refl. reflexivity.
        * apply (Hout i s Es E). rewrite G3. destruct (String.eqb_spec "METADATA" (sl_name s)); [congruence|reflexivity].
      + unfold cbit. rewrite Es. destruct (rw i); reflexivity.
    - intros n H. apply Hk. unfold mhas in *. rewrite G3 in H. destruct (String.eqb "METADATA" n); [discriminate|auto]. }
  destruct rk as [rk|].
  - set (mm' := match mm with Some k => k | None => 0xFFFFFFFFFFFFFFFF end) in *.
    assert (Hmm : forall i s, slot_at i = Some s -> sl_name s = "METADATA" -> Z.testbit mm' (i - sl_off s) = mask_bit mm (i - sl_off s)).
    { intros i s Hs Hn. unfold mm'. destruct mm as [k|]; [reflexivity|]. cbn [mask_bit]. apply slot_at_in in Hs as [Hs Hi].
      assert (sl_bits s = 64).
      { destruct (layout_lookup s Hs) as [A _]. rewrite Hn in A. assert (A' : field_bits "METADATA" = Some 64) by (vm_compute; reflexivity). congruence. }
      change 0xFFFFFFFFFFFFFFFF with (Z.ones 64). rewrite Z.ones_spec_low by lia. reflexivity. }
    assert (Hrwm : forall i s, slot_at i = Some s -> sl_name s = "METADATA" ->
        rw i = if Z.testbit rk (i - sl_off s) then Some (Z.testbit rv (i - sl_off s)) else None).
    { intros i s Hs Hn. rewrite <- (eo_rbit _ _ _ _ He i), (cbit_eq _ _ _ Hs), Hn, Er. reflexivity. }
    destruct (Z.land mm' (Z.lnot rk) =? 0) eqn:E0; cbn [negb].
    + apply Hdel. intros i s Hs Hn Hw. apply Z.eqb_eq in E0. rewrite (Hrwm i s Hs Hn) in Hw.
      rewrite (cbit_eq _ _ _ Hs), Hn, <- Gm. cbn [ibit]. rewrite <- (Hmm i s Hs Hn).
      assert (Hi := slot_at_in i s Hs). assert (B : Z.testbit (Z.land mm' (Z.lnot rk)) (i - sl_off s) = false) by (rewrite E0; apply Z.bits_0).
      rewrite Z.land_spec, Z.lnot_spec in B by lia. destruct (Z.testbit rk (i - sl_off s)); [discriminate|]. cbn [negb] in B.
      rewrite andb_true_r in B. now rewrite B.
    + eapply runs_weaken; [apply append_runs; auto|]. intros r1 m3 R1 L1 (M3 & x & Hy & G3). split; auto. split; [|split; [|apply Hx; intros n Hn; rewrite G3, (proj2 (String.eqb_neq _ _) (not_eq_sym Hn)); reflexivity]].
      * intros i. destruct (slot_at i) as [s|] eqn:Es.
        -- destruct (String.string_dec (sl_name s) "METADATA") as [E|E].
           ++ rewrite (Hrwm i s Es E), !(cbit_eq _ _ _ Es), E, G3, String.eqb_refl, <- Gm.
              assert (Hi := slot_at_in i s Es). destruct x as [[v' mk'] id']. destruct Hy as [_ Hy]. rewrite (Hy s (proj1 Hi) E) by lia.
              cbn [ibit mask_bit]. rewrite <- (Hmm i s Es E), !Z.land_spec, Z.lnot_spec by lia.
              destruct (Z.testbit rk _), (Z.testbit mm' _), (Z.testbit v _); reflexivity.
           ++ apply (Hout i s Es E). rewrite G3. destruct (String.eqb_spec "METADATA" (sl_name s)); [congruence|reflexivity].
        -- unfold cbit. rewrite Es. destruct (rw i); reflexivity.
      * intros n H. unfold mhas in H. rewrite G3 in H. destruct (String.eqb_spec "METADATA" n) as [E|E].
        -- rewrite <- E. unfold mhas. now rewrite <- Gm.
        -- now apply Hk.
  - apply Hdel. intros i s Hs Hn Hw. rewrite <- (eo_rbit _ _ _ _ He i), (cbit_eq _ _ _ Hs), Hn, Er in Hw. discriminate.
Qed.

(** ** Merging *)
Lemma match_wc_ok r m : match_ok r m ->
  exists w, match_wc m = Ok w /\ wc_ok w /\ padding_open w /\ forall p, accepts w p <-> maccepts m p.
Proof.
  intros H. destruct (match_wildcard_ok r m H) as (m' & w & E & _ & Hw & Hp & _ & _ & _ & _ & A).
  exists w. unfold match_wc. rewrite E. cbn [rbind snd]. auto.
Qed.
Definition pflip (p : packet) (i : Z) : packet := fun k => if k =? i then negb (p k) else p k.
Lemma intersection_runs r a b : reg_ok r -> match_ok r a -> match_ok r b -> (exists p, maccepts a p /\ maccepts b p) ->
  runs (s_intersection a b) r (fun r' m => match_ok r' m /\ (forall p, maccepts m p <-> maccepts a p /\ maccepts b p) /\
    (forall n, mhas m n = true -> exists i s, slot_at i = Some s /\ sl_name s = n /\ (cbit a i <> None \/ cbit b i <> None))).
Proof.
  intros Hr Ha Hb (p0 & Pa & Pb). unfold s_intersection, runs.
  destruct (match_wc_ok r a Ha) as (wa & -> & Wa & Oa & Aa). destruct (match_wc_ok r b Hb) as (wb & -> & Wb & Ob & Ab).
  assert (Hn : wildcard_intersect wa wb <> 0).
  { intros E. apply wildcard_intersect_zero in E. apply E. exists p0. split; [now apply Aa|now apply Ab]. }
  unfold match_intersection. assert (Hok := wildcard_intersect_ok wa wb (proj1 Wa) Hn).
  destruct (from_wildcard_ok r _ Hr Hok (padding_open_intersect _ _ Oa Ob Hn)) as (r' & m & E & R & M & Mono & C & F & Can).
  rewrite E. exists r', m. split; [reflexivity|]. split; auto. split; [exact Mono|]. split; auto.
  assert (Acc : forall p, maccepts m p <-> maccepts a p /\ maccepts b p).
  { intros p. unfold maccepts. destruct (wildcard_of_match (items_view (m_items m))) as (w & Ew & _ & _ & Aw & _).
    rewrite F in Ew. injection Ew as <-. rewrite <- Aw, wildcard_intersect_accepts, Aa, Ab. reflexivity. }
  split; auto. intros n Hn1. unfold mhas, mget in Hn1. destruct (dict_get (m_items m) n) as [[[v mk] id]|] eqn:Eg; [|discriminate].
  assert (Eg' := Eg). apply dict_get_in in Eg. assert (Hit : In (n, (v, mk)) (items_view (m_items m))) by (apply items_view_in; eauto).
  destruct (Can _ Hit) as (s & Hs & En & Hv). cbn [fst snd] in En, Hv.
  assert (Hbit : exists j, 0 <= j < sl_bits s /\ mask_bit mk j = true).
  { destruct mk as [k|].
    - destruct Hv as (Hk & _). exists (Z.log2 k). assert (0 <= Z.log2 k) by apply Z.log2_nonneg.
      split; [|cbn [mask_bit]; apply Z.bit_log2; lia]. split; auto. apply Z.log2_lt_pow2; lia.
    - exists 0. destruct (slot_range s Hs). split; [lia|reflexivity]. }
  destruct Hbit as (j & Hj & Hmj). exists (sl_off s + j), s.
  assert (Es : slot_at (sl_off s + j) = Some s) by (apply slot_at_some; auto; lia). split; auto. split; [congruence|].
  destruct (cbit a (sl_off s + j)) eqn:Ca; [left; discriminate|]. destruct (cbit b (sl_off s + j)) eqn:Cb; [right; discriminate|]. exfalso.
  assert (Cm : cbit m (sl_off s + j) = Some (Z.testbit v j)).
  { rewrite (cbit_eq _ _ _ Es). unfold mget. rewrite <- En, Eg'. cbn [ibit]. replace (sl_off s + j - sl_off s) with j by lia. now rewrite Hmj. }
  assert (Pm : maccepts m p0) by (apply Acc; auto).
  assert (Fl : forall x, match_ok r x \/ match_ok r' x -> cbit x (sl_off s + j) = None -> maccepts x p0 -> maccepts x (pflip p0 (sl_off s + j))).
  { intros x Hx Cx Px. assert (NDx : NoDup (map fst (m_items x))) by (destruct Hx as [Hx|Hx]; apply Hx).
    rewrite accepts_cbit in * by auto. intros i b0 Hi. unfold pflip. destruct (Z.eqb_spec i (sl_off s + j)) as [->|]; [congruence|auto]. }
  assert (Qm : maccepts m (pflip p0 (sl_off s + j))) by (apply Acc; split; apply Fl; auto).
  rewrite accepts_cbit in Pm, Qm by apply M. apply Pm in Cm as Cm1. apply Qm in Cm as Cm2. unfold pflip in Cm2. rewrite Z.eqb_refl in Cm2.
  rewrite Cm1 in Cm2. destruct (Z.testbit v j); discriminate.
Qed.

Definition both (a b : core) (p : packet) : Prop := maccepts (rmatch a) p /\ maccepts (rmatch b) (inst_header (inst a) p).

Lemma runs_eq {A} (c : st A) r post : runs c r post -> exists r' a, c r = (r', Ok a) /\ reg_ok r' /\ rle r r' /\ post r' a.
Proof. auto. Qed.
Lemma shift_none m r : reg_ok r -> sfold (shift_tunnel []) tunnels m r = (r, Ok m).
Proof. reflexivity. Qed.

Definition finish_merge (a b : core) (m : Match) (openflow : bool) : result core :=
  do i <- inst_merge (inst a) (inst b);
  if openflow && existsb ends_in_digit (mkeys m) then Err MergeException else
  Ok (mkCore (priority a + priority b) (cookie a) m
        (with_metadata i (merge_metadata (write_metadata (inst a)) (write_metadata (inst b)))) (table a)).

Lemma core_merge_plain r a b openflow : reg_ok r -> match_ok r (rmatch a) -> match_ok r (rmatch b) ->
  inst_ok (inst a) -> plain_acts (orig_order (apply_actions (inst a))) ->
  exists r', reg_ok r' /\ rle r r' /\
  (((~ exists p, both a b p) /\ core_merge a b openflow r = (r', Err MergeExceptionNoOverlap)) \/
   (exists m p0, both a b p0 /\ match_ok r' m /\ (forall p, maccepts m p <-> both a b p) /\
      (forall n, mhas m n = true -> exists i s, slot_at i = Some s /\ sl_name s = n /\
          (cbit (rmatch a) i <> None \/ (rinst (inst a) i = None /\ cbit (rmatch b) i <> None))) /\
      core_merge a b openflow r = (r', finish_merge a b m openflow))).
Proof.
  intros Hr Ma Mb Ia Pa. remember (core_merge a b openflow r) as res eqn:EM. unfold core_merge in EM.
  destruct (egress_runs r _ _ Hr Ma Ia Pa) as (r1 & e & E1 & R1 & L1 & He).
  destruct (match_wc_ok _ _ (eo_sim _ _ _ _ He)) as (wa & Ewa & Wa & Oa & Aa).
  destruct (match_wc_ok _ _ Mb) as (wb & Ewb & Wb & Ob & Ab).
  unfold sbind at 1 in EM. rewrite E1 in EM. unfold sbind at 1, slift at 1 in EM. rewrite Ewa in EM. unfold sbind at 1, slift at 1 in EM. rewrite Ewb in EM.
  set (rw := rinst (inst a)) in *.
  assert (NDa : NoDup (map fst (m_items (rmatch a)))) by apply Ma. assert (NDb : NoDup (map fst (m_items (rmatch b)))) by apply Mb.
  assert (NDs : NoDup (map fst (m_items (eg_sim e)))) by apply He.
  (* packets leaving the first rule *)
  assert (Himg : forall p, maccepts (rmatch a) p -> maccepts (eg_sim e) (inst_header (inst a) p)).
  { intros p Hp. rewrite accepts_cbit in * by auto. intros i v Hc. rewrite inst_header_rw. unfold apply_rw. fold rw.
    rewrite (eo_bit _ _ _ _ He) in Hc. destruct (rw i) as [x|]; cbn [ov] in Hc; [congruence|auto]. }
  destruct (wildcard_intersect wa wb =? 0) eqn:E0.
  - exists r1. split; auto. split; auto. left. split; [|exact EM]. intros (p & Hp1 & Hp2).
    apply Z.eqb_eq in E0. apply wildcard_intersect_zero in E0. apply E0. exists (inst_header (inst a) p).
    split; [apply Aa; auto|apply Ab; auto].
  - assert (Hov : exists q, maccepts (eg_sim e) q /\ maccepts (rmatch b) q).
    { destruct (wildcard_intersect_ok wa wb (proj1 Wa)) as [_ Hz]; [intros E; rewrite E in E0; discriminate|].
      destruct (zfree_nonempty _ Hz) as (q & Hq). apply wildcard_intersect_accepts in Hq as [H1 H2]. exists q. split; [now apply Aa|now apply Ab]. }
    destruct Hov as (q & Hq1 & Hq2).
    (* the rewritten bits satisfy the second match *)
    assert (Hfix : forall i x y, rw i = Some x -> cbit (rmatch b) i = Some y -> x = y).
    { intros i x y Hx Hy. rewrite accepts_cbit in Hq1, Hq2 by auto. apply Hq2 in Hy. rewrite <- Hy. symmetry. apply Hq1.
      rewrite (eo_bit _ _ _ _ He), Hx. reflexivity. }
    destruct (second_runs r1 r (rmatch a) rw e (rmatch b) R1 He Mb L1) as (r2 & m2 & E2 & R2 & L2 & M2 & B2 & K2 & _).
    assert (ND2 : NoDup (map fst (m_items m2))) by apply M2.
    assert (H2 : forall p, maccepts m2 p <-> maccepts (rmatch b) (inst_header (inst a) p)).
    { intros p. rewrite !accepts_cbit by auto. split.
      - intros H i v Hc. rewrite inst_header_rw. unfold apply_rw. fold rw. destruct (rw i) as [x|] eqn:Ex; [eauto|].
        apply H. rewrite B2, Ex. exact Hc.
      - intros H i v Hc. rewrite B2 in Hc. destruct (rw i) as [x|] eqn:Ex; [discriminate|]. apply H in Hc.
        rewrite inst_header_rw in Hc. unfold apply_rw in Hc. fold rw in Hc. now rewrite Ex in Hc. }
    (* a packet that does it *)
    assert (Hex : exists p0, maccepts (rmatch a) p0 /\ maccepts m2 p0).
    { destruct (match_wc_ok _ _ Ma) as (w1 & _ & W1 & _ & A1). destruct (zfree_nonempty _ (proj2 W1)) as (pa & Hpa). apply A1 in Hpa.
      exists (fun i => match rw i with Some _ => pa i | None => q i end). rewrite !accepts_cbit in * by auto. split.
      - intros i v Hc. destruct (rw i) eqn:Ex; [auto|]. apply Hq1. rewrite (eo_bit _ _ _ _ He), Ex. exact Hc.
      - intros i v Hc. rewrite B2 in Hc. destruct (rw i) eqn:Ex; [discriminate|auto]. }
    unfold sbind at 1 in EM. rewrite E2 in EM. unfold sbind at 1 in EM. rewrite (eo_ops _ _ _ _ He), shift_none in EM by auto.
    assert (Lr : rle r r2) by (eapply rle_trans; eauto).
    destruct (intersection_runs r2 (rmatch a) m2 R2 (match_ok_mono _ _ _ Lr Ma) M2 Hex) as (r3 & m & E3 & R3 & L3 & M3 & A3 & K3).
    unfold sbind at 1 in EM. rewrite E3 in EM. exists r3. split; auto. split; [eapply rle_trans; eauto|]. right.
    destruct Hex as (p0 & P1 & P2). exists m, p0. split; [split; [auto|now apply H2]|]. split; auto. split; [|split].
    + intros p. rewrite A3. unfold both. now rewrite H2.
    + intros n Hn. destruct (K3 n Hn) as (i & s & Hs & En & [Hc|Hc]); exists i, s; split; auto; split; auto.
      right. rewrite B2 in Hc. fold rw. destruct (rw i); [congruence|auto].
    + rewrite EM. unfold finish_merge, sbind, slift. destruct (inst_merge (inst a) (inst b)) as [i|err]; cbn [rbind]; [|reflexivity].
      destruct (openflow && existsb ends_in_digit (mkeys m)); reflexivity.
Qed.
