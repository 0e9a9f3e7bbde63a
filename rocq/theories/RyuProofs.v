(** Proofs about the Ryu conversion. *)
From Coq Require Import ZifyBool ZifyNat ZifyN Permutation.
From Verif Require Import SpecRyu FormatProofs MatchProofs ActionProofs ActionSetProofs InstProofs.
Import Text.
Local Open Scope string_scope.
Local Open Scope list_scope.
Local Open Scope Z_scope.
Local Opaque NB WC_FULLWC layout oxm_fields registry_init.

(** ** Bytes *)
Lemma from_bytes_weigh s : from_bytes s = weigh 256 (map ord s).
Proof.
  unfold from_bytes, weigh. generalize 0. induction s as [|c s IH]; intros a; cbn [fold_left map]; auto.
Qed.
Lemma to_bytes_are n : forall v, 0 <= v < 256 ^ Z.of_nat n -> bytes_are n v (to_bytes n v).
Proof.
  unfold bytes_are. induction n as [|n IH]; intros v H.
  - cbn in *. split; [reflexivity|]. unfold weigh. cbn. lia.
  - rewrite Nat2Z.inj_succ, Z.pow_succ_r in H by lia. cbn [to_bytes].
    destruct (IH (v / 256)) as [L W].
    { split; [apply Z.div_pos; lia|apply Z.div_lt_upper_bound; lia]. }
    split; [rewrite app_length, L; cbn [List.length]; lia|].
    rewrite map_app. cbn [map]. rewrite weigh_snoc, W.
    fold (ord (chr (v mod 256))). rewrite ord_chr by (apply Z.mod_pos_bound; lia). pose proof (Z.div_mod v 256). lia.
Qed.
Lemma split_count sep s : List.length (split sep s) = S (count_occ ascii_dec s sep).
Proof.
  induction s as [|c s IH]; [reflexivity|]. cbn [split count_occ].
  destruct (Ascii.eqb_spec c sep) as [->|N].
  - destruct (ascii_dec sep sep); [|congruence]. cbn [List.length]. now rewrite IH.
  - destruct (ascii_dec c sep); [congruence|]. destruct (split sep s) as [|w r]; cbn [List.length] in *; lia.
Qed.
Lemma normalise_plain bs : unlike_text bs -> normalise_bytes bs = Ok (from_bytes bs).
Proof.
  intros (C5 & C7 & CC & D & M). unfold normalise_bytes.
  assert (NC : contains (T "::") bs = false).
  { destruct (contains (T "::") bs) eqn:E; auto. apply contains_spec in E as (a & b & E). exfalso. apply CC. exists a, b. exact E. }
  rewrite NC, andb_false_r, orb_false_r, !split_count.
  assert (SD := split_count dot bs).
  replace (Nat.eqb (S (count_occ ascii_dec bs colon)) 8) with false by (symmetry; apply Nat.eqb_neq; unfold colon; lia).
  replace (Nat.eqb (S (count_occ ascii_dec bs colon)) 6) with false by (symmetry; apply Nat.eqb_neq; unfold colon; lia).
  replace (Nat.eqb (S (count_occ ascii_dec bs dash)) 6) with false by (symmetry; apply Nat.eqb_neq; unfold dash; lia).
  unfold dot in *. destruct (split "."%char bs) as [|a [|b [|c [|d [|e r]]]]]; auto. cbn [List.length] in SD. lia.
Qed.
Lemma normalise_sendable n v : sendable n v -> normalise_bytes (to_bytes n v) = Ok v.
Proof.
  intros [R U]. assert (B := to_bytes_are n v R). rewrite normalise_plain by (now apply U). f_equal.
  rewrite from_bytes_weigh. apply B.
Qed.
(** one and two byte fields: only 0x3a3a is misread *)
Lemma normalise_two v : 0 <= v < 65536 -> normalise_bytes (to_bytes 2 v) = Ok (if v =? 0x3a3a then 0 else v).
Proof.
  intros H. destruct (v =? 0x3a3a) eqn:E.
  - apply Z.eqb_eq in E as ->. vm_compute. reflexivity.
  - apply normalise_sendable. split; [cbn; lia|]. intros bs [L W].
    destruct bs as [|a [|b [|]]]; try discriminate L. cbn in W. unfold unlike_text.
    assert (forall c, (count_occ ascii_dec [a; b] c <= 2)%nat) as CO.
    { intros c. cbn. destruct (ascii_dec a c), (ascii_dec b c); lia. }
    repeat split; try (match goal with |- context [count_occ ascii_dec [a; b] ?c] => pose proof (CO c); lia end).
    intros (x & y & Q). destruct x as [|x0 x].
    + injection Q as -> -> _. vm_compute in W. lia.
    + destruct x as [|x1 x]; [discriminate Q|]. destruct x; discriminate Q.
Qed.

(** ** Names *)
Lemma wire_sweep : forallb (fun f => String.eqb (str_upper (str_lower (fst f))) (fst f) &&
    match sassoc (str_lower (fst f)) ryu_types with Some (_, s) => s =? Z.of_nat (snd f) | None => false end &&
    match dict_get registry_init (fst f) with Some (_, Some b) => 0 <? b | _ => false end &&
    match sassoc (fst f) field_deps with Some _ => true | None => false end) wire_fields = true.
Proof. vm_compute. reflexivity. Qed.
Lemma wire_facts f n : In (f, n) wire_fields -> str_upper (str_lower f) = f /\
  (exists num, sassoc (str_lower f) ryu_types = Some (num, Z.of_nat n)) /\
  (exists i b, dict_get registry_init f = Some (i, Some b) /\ 0 < b) /\ (exists d, sassoc f field_deps = Some d).
Proof.
  intros H. assert (S := wire_sweep). rewrite forallb_forall in S. specialize (S _ H). cbn [fst snd] in S.
  apply andb_true_iff in S as [S S4]. apply andb_true_iff in S as [S S3]. apply andb_true_iff in S as [S1 S2].
  split; [now apply String.eqb_eq|]. split.
  { destruct (sassoc (str_lower f) ryu_types) as [[num s]|]; [|discriminate]. exists num. apply Z.eqb_eq in S2 as ->. reflexivity. }
  split.
  { destruct (dict_get registry_init f) as [[i [b|]]|]; try discriminate. exists i, b. split; auto. lia. }
  destruct (sassoc f field_deps) as [d|]; [eauto|discriminate].
Qed.

(** ** Matches *)
(** a stored item is as [append] leaves it *)
Definition normed (r : registry) (kv : string * (Z * option Z * Z)) : Prop :=
  let '(k, (v, mk, id)) := kv in exists b, dict_get r k = Some (id, b) /\ append_norm b v mk = (v, mk).
Lemma append_norm_idem b v mk : match b with Some n => 0 <= n | None => True end ->
  append_norm b (fst (append_norm b v mk)) (snd (append_norm b v mk)) = append_norm b v mk.
Proof.
  intros Hb. destruct b as [n|], mk as [m|]; try reflexivity. unfold append_norm.
  destruct ((n =? 0) || (m =? 0)) eqn:E; cbn [fst snd].
  - now rewrite E.
  - set (mx := 2 ^ n - 1). destruct (Z.land m mx =? mx) eqn:F; cbn [fst snd]; [reflexivity|].
    destruct ((n =? 0) || (Z.land m mx =? 0)) eqn:G; [reflexivity|].
    rewrite <- (Z.land_assoc m mx mx), Z.land_diag, F, <- Z.land_assoc, Z.land_diag. reflexivity.
Qed.
Lemma reg_bits_pos r k i b : reg_ok r -> dict_get r k = Some (i, Some b) -> 0 <= b.
Proof.
  intros (_ & _ & extra & -> & Hx) H. rewrite dict_get_app in H.
  destruct (dict_get registry_init k) as [[i' b']|] eqn:E.
  - injection H as -> ->. apply dict_get_in in E.
    assert (S : forallb (fun e => match snd (snd e) with Some b => 0 <=? b | None => true end) registry_init = true) by (vm_compute; reflexivity).
    rewrite forallb_forall in S. specialize (S _ E). cbn [snd] in S. lia.
  - apply dict_get_in in H. apply Hx in H. discriminate H.
Qed.
Lemma append_all_normed l : forall r m, reg_ok r -> match_ok r m -> Forall (normed r) (m_items m) ->
  let '(r', m') := match_append_all r m l in Forall (normed r') (m_items m').
Proof.
  induction l as [|[name [v mk]] t IH]; intros r m Hr Hm Hn; cbn [match_append_all]; [auto|].
  assert (A := match_append_ok r m name v mk Hr Hm). destruct (match_append r m name v mk) as [r1 m1] eqn:E.
  destruct A as (A1 & A2 & A3). apply IH; auto.
  unfold match_append in E. assert (O := oxm_name_to_id_ok r name Hr). destruct (oxm_name_to_id r name) as [r' id].
  destruct O as (O1 & (b & O2) & O3 & _). rewrite O2 in E. destruct (append_norm b v mk) as [v' mk'] eqn:En.
  injection E as <- <-. cbn [m_items]. apply Forall_forall. intros [k [[v0 mk0] id0]] Hin.
  apply dict_set_in in Hin; [|apply Hm]. destruct Hin as [[-> [= -> -> ->]]|[_ Hin]].
  - exists b. split; auto. assert (I := append_norm_idem b v mk). rewrite En in I. apply I.
    destruct b; auto. eapply reg_bits_pos; eauto.
  - rewrite Forall_forall in Hn. pose proof (Hn _ Hin) as Q. cbn [normed] in Q. destruct Q as (b0 & B1 & B2). exists b0. auto.
Qed.
(** appending items that are known and normalised, under new names, stores them in order *)
Lemma append_all_items l : forall r m, Forall (normed r) l -> NoDup (map fst l) ->
  (forall k, In k (map fst l) -> ~ In k (map fst (m_items m))) ->
  exists m', match_append_all r m (items_view l) = (r, m') /\ m_items m' = m_items m ++ l.
Proof.
  induction l as [|[k [[v mk] id]] t IH]; intros r m Hn ND Hd; cbn [items_view map match_append_all].
  - exists m. now rewrite app_nil_r.
  - inversion Hn as [|? ? Q Hn']; subst. cbn [normed] in Q. destruct Q as (b & B1 & B2). inversion ND as [|? ? Hk ND']; subst.
    unfold match_append, oxm_name_to_id. rewrite B1, B1, B2.
    rewrite dict_set_new by (apply Hd; now left).
    destruct (IH r (MkMatch (m_items m ++ [(k, (v, mk, id))]) (Z.lor (m_required m) (Z.shiftl 1 id)) None)) as (m' & E & I); auto.
    { intros k' Hk' Hin. cbn [m_items] in Hin. rewrite map_app in Hin. apply in_app_or in Hin as [Hin|[<-|[]]].
      - apply (Hd k'); [now right|auto].
      - auto. }
    exists m'. split; [exact E|]. rewrite I. cbn [m_items]. now rewrite <- app_assoc.
Qed.
Lemma match_eqb_perm r r' a b : match_ok r a -> match_ok r' b -> Permutation (m_items a) (m_items b) -> match_eqb a b = true.
Proof.
  intros Ha Hb P. unfold match_eqb. apply andb_true_iff. split.
  - apply Z.eqb_eq. apply Z.bits_inj'. intros n Hn.
    destruct Ha as (_ & _ & _ & Ha & _), Hb as (_ & _ & _ & Hb & _). apply eq_true_iff_eq. rewrite Ha, Hb by lia.
    split; intros (k & v & mk & Hin); exists k, v, mk; [exact (Permutation_in _ P Hin)|exact (Permutation_in _ (Permutation_sym P) Hin)].
  - unfold dict_eqb. apply andb_true_iff. split; [apply Nat.eqb_eq, Permutation_length, P|].
    apply forallb_forall. intros [k v] Hin. apply (Permutation_in _ P) in Hin.
    cbn [fst snd]. rewrite (dict_in_get (m_items b) k v); [apply item_val_eqb_eq; reflexivity|apply Hb|exact Hin].
Qed.

Definition enc (kv : string * (Z * option Z * Z)) : result (Z * ryu_field) :=
  let '(k, (v, mk, _)) := kv in oxm_from_user (str_lower k) v mk.
(** the dict comprehension, for names that stay different *)
Lemma lower_dict l : forall d, NoDup (map (fun kv => str_lower (fst kv)) l) ->
  (forall k, In k (map (fun kv => str_lower (fst kv)) l) -> ~ In k (map fst d)) ->
  fold_left (fun (d : dict (Z * option Z)) (kv : string * (Z * option Z * Z)) => let '(k, (v, mk, _)) := kv in dict_set d (str_lower k) (v, mk)) l d =
  d ++ map (fun kv : string * (Z * option Z * Z) => let '(k, (v, mk, _)) := kv in (str_lower k, (v, mk))) l.
Proof.
  induction l as [|[k [[v mk] id]] t IH]; intros d ND Hd; cbn [fold_left map]; [now rewrite app_nil_r|].
  inversion ND as [|? ? Hk ND']; subst. rewrite dict_set_new by (apply Hd; now left). rewrite IH; auto.
  - now rewrite <- app_assoc.
  - intros k' Hk' Hin. rewrite map_app in Hin. apply in_app_or in Hin as [Hin|[<-|[]]]; [|auto].
    apply (Hd k'); [now right|auto].
Qed.
Lemma insert_num_perm n f l : Permutation (insert_num n f l) ((n, f) :: l).
Proof.
  induction l as [|[n' g] t IH]; cbn [insert_num]; [reflexivity|]. destruct (n' <=? n); [|reflexivity].
  rewrite IH. apply perm_swap.
Qed.
Lemma sort_perm fs : forall acc, Permutation (fold_left (fun acc nf => insert_num (fst nf) (snd nf) acc) fs acc) (acc ++ fs).
Proof.
  induction fs as [|[n f] t IH]; intros acc; cbn [fold_left fst snd]; [now rewrite app_nil_r|].
  rewrite IH, insert_num_perm. cbn [app]. apply Permutation_middle.
Qed.
Lemma rall_ok_map {X Y} (f : X -> result Y) l : Forall (fun x => exists y, f x = Ok y) l -> exists ys, rall (map f l) = Ok ys /\ Forall2 (fun x y => f x = Ok y) l ys.
Proof.
  induction 1 as [|x l (y & E) _ (ys & E' & F)]; [exists []; split; [reflexivity|constructor]|].
  exists (y :: ys). cbn [map rall]. rewrite E. cbn [rbind]. rewrite E'. split; [reflexivity|constructor; auto].
Qed.
Lemma Forall2_perm_r {X Y} (R : X -> Y -> Prop) l m m' : Forall2 R l m -> Permutation m m' -> exists l', Permutation l l' /\ Forall2 R l' m'.
Proof.
  intros H P. revert l H. induction P as [|x m m' P IH|x y m|m m' m'' P IH P' IH']; intros l H.
  - inversion H; subst. exists []. split; [reflexivity|constructor].
  - inversion H as [|a ? b ? Ha Hb]; subst. destruct (IH _ Hb) as (l' & P1 & F1). exists (a :: l'). split; [now constructor|constructor; auto].
  - inversion H as [|a ? b ? Ha Hb]; subst. inversion Hb as [|a2 ? b2 ? Ha2 Hb2]; subst. eexists. split; [apply perm_swap|repeat constructor; eauto].
  - destruct (IH _ H) as (l' & P1 & F1). destruct (IH' _ F1) as (l'' & P2 & F2). exists l''. split; [now transitivity l'|auto].
Qed.
Lemma carried_enc kv : carried kv -> exists nf, enc kv = Ok nf.
Proof.
  destruct kv as [k [[v mk] id]]. intros (n & W & _). unfold enc, oxm_from_user.
  destruct (wire_facts _ _ W) as (_ & (num & ->) & _). eauto.
Qed.
Lemma lower_nodup l : Forall carried l -> NoDup (map fst l) -> NoDup (map (fun kv => str_lower (fst kv)) l).
Proof.
  intros C ND. rewrite <- (map_map fst str_lower). clear - C ND.
  assert (U : forall k, In k (map fst l) -> str_upper (str_lower k) = k).
  { intros k Hk. apply in_map_iff in Hk as ([k' [[v mk] id]] & <- & Hin). rewrite Forall_forall in C. specialize (C _ Hin).
    destruct C as (n & W & _). apply (wire_facts _ _ W). }
  induction (map fst l) as [|k t IH]; cbn [map]; [constructor|]. inversion ND as [|? ? Hk ND']; subst. constructor.
  - intros Hin. apply in_map_iff in Hin as (k' & E & Hk'). apply Hk. rewrite <- (U k (or_introl eq_refl)), <- E, (U k'); auto. now right.
  - apply IH; auto. intros k' Hk'. apply U. now right.
Qed.
Lemma match_to_ryu_ok m : Forall carried (m_items m) -> NoDup (map fst (m_items m)) ->
  exists nfs l, match_to_ryu m = Ok (map snd nfs) /\ Permutation (m_items m) l /\ Forall2 (fun kv nf => enc kv = Ok nf) l nfs.
Proof.
  intros C ND. unfold match_to_ryu, ofp_match. rewrite lower_dict; [|now apply lower_nodup|intros k _ []]. cbn [app].
  rewrite map_map. set (g := fun x : string * (Z * option Z * Z) => _).
  assert (G : forall kv, g kv = enc kv) by (intros [k [[v mk] id]]; reflexivity).
  destruct (rall_ok_map g (m_items m)) as (ys & E & F).
  { eapply Forall_impl; [|exact C]. intros kv Hkv. rewrite G. now apply carried_enc. }
  rewrite E. cbn [rbind]. assert (P := sort_perm ys []). cbn [app] in P. apply Permutation_sym in P.
  destruct (Forall2_perm_r _ _ _ _ F P) as (l & P1 & F1). eexists _, l. split; [reflexivity|]. split; auto.
  clear - F1 G. induction F1 as [|x y l m H _ IH]; constructor; auto. now rewrite <- G.
Qed.
Lemma match_from_enc l nfs : Forall carried l -> Forall2 (fun kv nf => enc kv = Ok nf) l nfs -> forall r m,
  match_from_ryu r m (map snd nfs) = Ok (match_append_all r m (items_view l)).
Proof.
  intros C F. revert C. induction F as [|[k [[v mk] id]] nf l nfs E _ IH]; intros C r m; cbn [map match_from_ryu items_view match_append_all]; [reflexivity|].
  inversion C as [|? ? Q C']; subst. cbn [carried] in Q. destruct Q as (n & W & Sv & Sm).
  destruct (wire_facts _ _ W) as (U & (num & T) & _). unfold enc, oxm_from_user in E. rewrite T in E. injection E as <-. cbn [snd].
  rewrite Nat2Z.id. destruct mk as [x|].
  - destruct Sm as [Sm ->]. rewrite (normalise_sendable _ _ Sv), (normalise_sendable _ _ Sm). cbn [rbind rmap]. rewrite U.
    destruct (match_append r m k v (Some x)) as [r' m']. now apply IH.
  - rewrite (normalise_sendable _ _ Sv). cbn [rbind]. rewrite U.
    destruct (match_append r m k v None) as [r' m']. now apply IH.
Qed.
Lemma match_round_trip r m : reg_ok r -> match_ok r m -> Forall (normed r) (m_items m) -> Forall carried (m_items m) ->
  exists fs m', match_to_ryu m = Ok fs /\ match_from_ryu r match_new fs = Ok (r, m') /\ match_eqb m m' = true.
Proof.
  intros Hr Hm Hn Hc. destruct (match_to_ryu_ok m Hc (proj1 Hm)) as (nfs & l & E & P & F). exists (map snd nfs).
  rewrite (match_from_enc l nfs).
  2:{ exact (Permutation_Forall P Hc). }
  2: exact F.
  destruct (append_all_items l r match_new) as (m' & A & I).
  { exact (Permutation_Forall P Hn). }
  { exact (Permutation_NoDup (Permutation_map _ P) (proj1 Hm)). }
  { intros k _ []. }
  exists m'. split; auto. rewrite A. split; auto.
  assert (K := match_append_all_ok (items_view l) r match_new Hr (match_new_ok r)). rewrite A in K. destruct K as (_ & K & _).
  apply (match_eqb_perm r r); auto. rewrite I. exact P.
Qed.

(** ** Actions *)
Lemma ordinary_known a : ordinary a -> known a = true.
Proof.
  destruct a as [n v]. intros [[H ->]|[[H (k & ->)]|[-> (f & k & -> & Hf)]]].
  - repeat (destruct H as [<-|H]; [vm_compute; reflexivity|]). destruct H.
  - repeat (destruct H as [<-|H]; [vm_compute; reflexivity|]). destruct H.
  - apply in_map_iff in Hf as ([f' w] & <- & W). destruct (wire_facts _ _ W) as (_ & _ & _ & (d & D)).
    unfold known, to_type. cbn [fst snd String.eqb]. unfold action_dependancies. cbn -[field_deps sassoc]. now rewrite D.
Qed.
Lemma ordinary_trip a : ordinary a -> exists ra, action_to_ryu a = Ok ra /\ action_from_ryu ra = Ok a.
Proof.
  destruct a as [n v]. intros [[H ->]|[[H (k & ->)]|[-> (f & k & -> & Hf)]]].
  - repeat (destruct H as [<-|H]; [eexists; split; reflexivity|]). destruct H.
  - repeat (destruct H as [<-|H]; [eexists; split; reflexivity|]). destruct H.
  - eexists. split; [reflexivity|]. apply in_map_iff in Hf as ([f' w] & <- & W). cbn [fst action_from_ryu].
    destruct (wire_facts _ _ W) as (-> & _). reflexivity.
Qed.
Lemma ordinary_not_group a t bs : ordinary a -> snd a <> VGroup t bs.
Proof. destruct a as [n v]. intros [[_ ->]|[[_ (k & ->)]|[_ (f & k & -> & _)]]]; discriminate. Qed.
Lemma actions_trip link vlan l c : Forall ordinary l -> exists ras, actions_to_ryu link vlan l c = Ok (ras, [], c) /\
  forall (append : alist -> action -> result alist) s, rfold (fun ret a => do x <- action_from_ryu a; append ret x) ras s = rfold append l s.
Proof.
  induction 1 as [|a l Ha _ (ras & E & R)]; [exists []; split; reflexivity|].
  destruct (ordinary_trip a Ha) as (ra & E1 & E2). exists (ra :: ras). split.
  - cbn [actions_to_ryu]. replace (if String.eqb (fst a) "GROUP" then _ else _) with (Ok (ra, @nil group_mod, c)).
    { cbn [rbind]. rewrite E. reflexivity. }
    destruct (String.eqb (fst a) "GROUP") eqn:G.
    + destruct a as [n v]. cbn [fst snd] in *. apply String.eqb_eq in G as ->. cbn in E1. injection E1 as <-.
      destruct v as [| | |t bs]; auto. exfalso. now apply (ordinary_not_group _ t bs Ha).
    + rewrite E1. reflexivity.
  - intros append s. cbn [rfold]. rewrite E2. cbn [rbind]. destruct (append s a); cbn [rbind]; auto.
Qed.
Lemma apply_trip xs a : al_of xs = Ok a -> exists a', al_of (al_iter a) = Ok a' /\ al_eqb a a' = true.
Proof.
  intros H. assert (K := al_of_ok _ _ H). assert (T := al_ok_iter _ _ K).
  destruct (al_of_teq xs (al_iter a) a H T) as (a' & E & L). exists a'. split; auto.
  apply (al_eqb_iff _ _ _ _ K (al_of_ok _ _ E)). exact T.
Qed.
Lemma write_trip ws w : as_of ws = Ok w -> Forall ordinary (al_iter w) -> exists w', as_of (al_iter w) = Ok w' /\ al_eqb w w' = true.
Proof.
  intros H O. destruct (as_of_total (al_iter w)) as (w' & E).
  { eapply Forall_impl; [|exact O]. apply ordinary_known. }
  exists w'. split; auto. apply (set_inv_eqb _ _ _ _ (as_of_inv _ _ H) (as_of_inv _ _ E)). apply weq_sym. apply set_inv_iter. now apply as_of_inv.
Qed.

(** ** Rules *)
Lemma instructions_trip link vlan xs ws goto a w clear c :
  al_of xs = Ok a -> as_of ws = Ok w -> Forall ordinary (al_iter a) -> Forall ordinary (al_iter w) ->
  exists is i, instructions_to_ryu link vlan (mkInst goto a w None clear None) c = Ok (is, [], c) /\
    instructions_from_ryu is = Ok i /\ inst_eqb (mkInst goto a w None clear None) i = true.
Proof.
  intros Ha Hw Oa Ow. destruct (actions_trip link vlan _ c Oa) as (ras & Ea & Ra). destruct (actions_trip link vlan _ c Ow) as (rws & Ew & Rw).
  destruct (apply_trip _ _ Ha) as (a' & Ea' & Qa). destruct (write_trip _ _ Hw Ow) as (w' & Ew' & Qw).
  assert (Na : al_is_empty a = true -> a' = al_empty).
  { unfold al_is_empty. intros N. destruct (orig_order a) eqn:E; [|discriminate]. destruct (al_of_ok _ _ Ha) as [O _].
    rewrite E in O. subst xs. injection Ha as <-. injection Ea' as <-. reflexivity. }
  assert (Nw : al_is_empty w = true -> w' = al_empty).
  { unfold al_is_empty. intros N. destruct (orig_order w) eqn:E; [|discriminate].
    assert (K := set_inv_canonical _ _ (as_of_inv _ _ Hw)). rewrite E in K. injection K as <-. injection Ew' as <-. reflexivity. }
  unfold instructions_to_ryu. cbn [goto_table apply_actions write_actions write_metadata clear_actions meter].
  rewrite Ew. cbn [rbind].
  exists ((match goto with Some t => [OFPInstructionGotoTable t] | None => [] end) ++
          (if al_is_empty w then [] else [OFPInstructionWriteActions rws]) ++
          (if al_is_empty a then [] else [OFPInstructionApplyActions ras]) ++ (if clear then [OFPInstructionClearActions] else [])).
  exists (mkInst goto a' w' None clear None). split.
  { destruct (al_is_empty w); cbn [rbind]; rewrite ?Ea; destruct (al_is_empty a); cbn [rbind]; reflexivity. }
  split.
  - assert (Fa : actions_from_ryu al_append ras = Ok a') by (unfold actions_from_ryu; rewrite Ra; exact Ea').
    assert (Fw : actions_from_ryu as_append rws = Ok w') by (unfold actions_from_ryu; rewrite Rw; exact Ew').
    unfold instructions_from_ryu.
    destruct (al_is_empty a); [rewrite (Na eq_refl)|]; (destruct (al_is_empty w); [rewrite (Nw eq_refl)|]); destruct goto, clear;
      cbn [app rfold instruction_from_ryu rbind]; rewrite ?Fa, ?Fw; cbn [rbind goto_table apply_actions write_actions write_metadata clear_actions meter];
      rewrite ?Fa, ?Fw; reflexivity.
  - unfold inst_eqb. cbn [goto_table apply_actions write_actions write_metadata clear_actions meter]. rewrite Qa, Qw.
    destruct goto as [g|]; cbn [opt_eqb]; rewrite ?Z.eqb_refl; destruct clear; reflexivity.
Qed.
Lemma rule_trip link r m xs ws goto a w clear p ck t c :
  reg_ok r -> match_ok r m -> Forall (normed r) (m_items m) -> Forall carried (m_items m) ->
  al_of xs = Ok a -> as_of ws = Ok w -> Forall ordinary (al_iter a) -> Forall ordinary (al_iter w) ->
  let ru := mkCore p ck m (mkInst goto a w None clear None) t in
  exists f ru', rule_to_ryu link ru c = Ok (f, [], c) /\ rule_from_ryu r f = Ok (r, ru') /\ core_eqb ru ru' = true.
Proof.
  intros Hr Hm Hn Hc Ha Hw Oa Ow. cbn zeta. destruct (match_round_trip r m Hr Hm Hn Hc) as (fs & m' & E1 & E2 & E3).
  unfold rule_to_ryu. cbn [rmatch inst priority cookie table]. rewrite E1. cbn [rbind].
  match goal with |- context [instructions_to_ryu link ?v _ c] => destruct (instructions_trip link v xs ws goto a w clear c Ha Hw Oa Ow) as (is & i & I1 & I2 & I3) end.
  rewrite I1. cbn [rbind]. eexists _, _. split; [reflexivity|]. unfold rule_from_ryu. cbn [f_match f_instructions f_priority f_cookie f_table].
  rewrite E2. cbn [rbind]. rewrite I2. cbn [rbind]. split; [reflexivity|]. unfold core_eqb. cbn [priority cookie rmatch inst table].
  rewrite !Z.eqb_refl, E3, I3. destruct ck; cbn [opt_eqb]; rewrite ?Z.eqb_refl; reflexivity.
Qed.
(** a name that Ryu does not know *)
Lemma rall_err {X Y} (f : X -> result Y) e l : (exists x, In x l /\ f x = Err e) -> (forall x e', In x l -> f x = Err e' -> e' = e) -> rall (map f l) = Err e.
Proof.
  induction l as [|x l IH]; intros (y & Hy & E) U; [destruct Hy|]. cbn [map rall]. destruct (f x) as [z|e'] eqn:F; cbn [rbind].
  - rewrite IH; [reflexivity| |intros x' e' Hx'; apply U; now right]. destruct Hy as [->|Hy]; [congruence|eauto].
  - f_equal. apply (U x e'); [now left|auto].
Qed.
Lemma dict_fold_in l : forall (d : dict (Z * option Z)) k, (In k (map fst d) \/ In k (map (fun kv : string * (Z * option Z * Z) => str_lower (fst kv)) l)) ->
  In k (map fst (fold_left (fun d (kv : string * (Z * option Z * Z)) => let '(k, (v, mk, _)) := kv in dict_set d (str_lower k) (v, mk)) l d)).
Proof.
  induction l as [|[k0 [[v mk] id]] t IH]; intros d k H; cbn [fold_left map] in *; [destruct H as [H|[]]; auto|].
  apply IH. cbn [fst] in H. rewrite dict_set_keys. destruct (existsb (String.eqb (str_lower k0)) (map fst d)) eqn:E.
  - apply existsb_key in E. destruct H as [H|[<-|H]]; auto.
  - rewrite in_app_iff. cbn [In]. destruct H as [H|[<-|H]]; auto.
Qed.
Lemma unknown_field m k : In k (map fst (m_items m)) -> sassoc (str_lower k) ryu_types = None -> match_to_ryu m = Err KeyError.
Proof.
  intros Hk N. unfold match_to_ryu, ofp_match.
  assert (I := dict_fold_in (m_items m) [] (str_lower k)). rewrite (rall_err _ KeyError); [reflexivity| |].
  - cbn [map] in I. match type of I with _ -> In _ (map fst ?d) => assert (J : In (str_lower k) (map fst d)) end.
    { apply I. right. apply in_map_iff in Hk as (kv & <- & Hk). apply in_map_iff. eauto. }
    apply in_map_iff in J as ((k' & v & mk) & E & J). cbn [fst] in E. subst k'. exists (str_lower k, (v, mk)). split; auto.
    cbn [fst snd]. unfold oxm_from_user. now rewrite N.
  - intros x e' _. unfold oxm_from_user. destruct (sassoc (fst x) ryu_types) as [[num size]|]; congruence.
Qed.

(** ** Groups *)
Section Groups.
  Context (link : aval -> option string) (vlan : option Z).
  Notation G := (group_to_ryu link vlan).
  Notation A := (actions_to_ryu link vlan).
  Fixpoint buckets_to_ryu (bs : list (list action)) (c : Z) : result (list (list ryu_action) * list group_mod * Z) :=
    match bs with
    | [] => Ok ([], [], c)
    | b :: bs' => do (ras, ms, c1) <- A b c; do (rbs, ms', c2) <- buckets_to_ryu bs' c1; Ok (ras :: rbs, ms ++ ms', c2)
    end.
  Lemma group_to_ryu_eq t bs c : G (VGroup t bs) c =
    if negb (str_in (str_upper t) group_types) then Err AttributeError else
    do (id, c0) <- group_ofdpa_id (link (VGroup t bs)) vlan (hd_error bs) c;
    do (rbs, msgs, c1) <- buckets_to_ryu bs c0;
    Ok (id, msgs ++ [mkGM (str_upper t) id rbs], c1).
  Proof.
    cbn [group_to_ryu]. destruct (negb (str_in (str_upper t) group_types)); [reflexivity|].
    destruct (group_ofdpa_id (link (VGroup t bs)) vlan (hd_error bs) c) as [[id c0]|e]; [|reflexivity]. cbn [rbind].
    match goal with |- rbind (?g bs c0) _ = _ => assert (E : forall bs c, g bs c = buckets_to_ryu bs c) end.
    { clear. induction bs as [|b bs IH]; intros c; [reflexivity|]. cbn [buckets_to_ryu].
      match goal with |- rbind (?g b c) _ = _ => assert (E : forall l c, g l c = A l c) end.
      { clear. induction l as [|a l IH]; intros c; [reflexivity|]. cbn [actions_to_ryu].
        match goal with |- rbind ?x _ = rbind ?y _ => change x with y; destruct y as [[[ra ms] c1]|e] end; [|reflexivity].
        cbn [rbind]. rewrite IH. reflexivity. }
      rewrite E. destruct (A b c) as [[[ras ms] c1]|e]; [|reflexivity]. cbn [rbind]. rewrite IH. reflexivity. }
    rewrite E. reflexivity.
  Qed.

  (** what the conversion of [l] promises *)
  Definition good (ras : list ryu_action) (ms : list group_mod) (l : list action) : Prop :=
    (forall ms', incl ms ms' -> list_means ms' ras l) /\
    (forall known, installable known ms) /\
    (forall id, In id (refs ras) -> In id (map gm_id ms)).
  Lemma installable_mono ms : forall k k', incl k k' -> installable k ms -> installable k' ms.
  Proof.
    induction ms as [|m ms IH]; intros k k' H; cbn [installable]; auto. intros [H1 H2]. split; [intros b id Hb Hi; apply H; eauto|].
    eapply IH; [|exact H2]. intros x [->|Hx]; [now left|right; auto].
  Qed.
  Lemma installable_app ms : forall k ms', installable k ms -> (forall k', incl (map gm_id ms) k' -> incl k k' -> installable k' ms') -> installable k (ms ++ ms').
  Proof.
    induction ms as [|m ms IH]; intros k ms' H K; cbn [app].
    - apply K; [intros x []|intros x; auto].
    - destruct H as [H1 H2]. split; auto. apply IH; auto. intros k' I1 I2. apply K.
      + intros x [<-|Hx]; [apply I2; now left|auto].
      + intros x Hx. apply I2. now right.
  Qed.
  Lemma refs_cons ra ras : refs (ra :: ras) = refs [ra] ++ refs ras.
  Proof. destruct ra as [| | | | | | | | | |g| | | | | |]; try reflexivity. destruct g; reflexivity. Qed.
  Lemma refs_plain a ra : ordinary a -> fst a <> "GROUP" -> action_to_ryu a = Ok ra -> refs [ra] = [] /\ forall ms, means ms ra a.
  Proof.
    destruct a as [n v]. intros [[H ->]|[[H (k & ->)]|[-> (f & k & -> & Hf)]]] N E; cbn [fst] in N.
    - repeat (destruct H as [<-|H]; [injection E as <-; split; [reflexivity|intros; constructor]|]). destruct H.
    - repeat (destruct H as [<-|H]; [first [exfalso; apply N; reflexivity | injection E as <-; split; [reflexivity|intros; constructor]]|]). destruct H.
    - injection E as <-. split; [reflexivity|]. intros. constructor.
  Qed.
  Definition val_good (v : aval) : Prop := forall t bs c id ms c', v = VGroup t bs -> group_objects ("GROUP", v) -> G v c = Ok (id, ms, c') ->
    (forall ms', incl ms ms' -> means ms' (OFPActionGroup (VInt id)) ("GROUP", v)) /\ (forall known, installable known ms) /\ In id (map gm_id ms).
  Lemma actions_good l : Forall (fun a => val_good (snd a)) l -> Forall group_objects l ->
    forall c ras ms c', A l c = Ok (ras, ms, c') -> good ras ms l.
  Proof.
    induction l as [|a l IH]; intros Hv Hg c ras ms c' E; cbn [actions_to_ryu] in E.
    - injection E as <- <- <-. split; [constructor|]. split; [intros; exact Logic.I|intros id []].
    - inversion Hv as [|? ? V Hv']; subst. inversion Hg as [|? ? Ga Hg']; subst.
      apply rbind_ok in E as ([[ra m1] c1] & E1 & E). apply rbind_ok in E as ([[ras' m2] c2] & E2 & E). injection E as <- <- <-.
      destruct (IH Hv' Hg' _ _ _ _ E2) as (L1 & L2 & L3).
      assert (H : (forall ms', incl m1 ms' -> means ms' ra a) /\ (forall known, installable known m1) /\ (forall id, In id (refs [ra]) -> In id (map gm_id m1))).
      { inversion Ga as [x Ho Hn Ex|t bs Hb Ex]; subst x || subst a.
        - destruct (String.eqb_spec (fst a) "GROUP") as [|_]; [contradiction|].
          apply rbind_ok in E1 as (ra' & E1 & E1'). injection E1' as -> <- <-. destruct (refs_plain a ra Ho Hn E1) as [R M].
          split; [auto|]. split; [intros; exact Logic.I|]. rewrite R. intros id [].
        - cbn [fst snd] in E1. rewrite String.eqb_refl in E1.
          apply rbind_ok in E1 as ([[gid m1'] c1'] & E1 & E1'). injection E1' as <- <- <-. cbn [snd] in V.
          destruct (V t bs c gid m1' c1' eq_refl Ga E1) as (V1 & V2 & V3). split; auto. split; auto. intros id [<-|[]]. exact V3. }
      destruct H as (H1 & H2 & H3). split; [|split].
      + intros ms' I. constructor; [apply H1; intros x Hx; apply I, in_app_iff; auto|apply L1; intros x Hx; apply I, in_app_iff; auto].
      + intros known. apply installable_app; auto.
      + intros id. rewrite refs_cons, map_app, !in_app_iff. intros [Hi|Hi]; auto.
  Qed.
  Lemma buckets_good bs : Forall (Forall (fun a => val_good (snd a))) bs -> Forall (Forall group_objects) bs ->
    forall c rbs ms c', buckets_to_ryu bs c = Ok (rbs, ms, c') ->
    (forall ms', incl ms ms' -> all_means ms' rbs bs) /\ (forall known, installable known ms) /\
    (forall b id, In b rbs -> In id (refs b) -> In id (map gm_id ms)).
  Proof.
    induction bs as [|b bs IH]; intros Hv Hg c rbs ms c' E; cbn [buckets_to_ryu] in E.
    - injection E as <- <- <-. split; [constructor|]. split; [intros; exact Logic.I|intros b id []].
    - inversion Hv as [|? ? V Hv']; subst. inversion Hg as [|? ? Gb Hg']; subst.
      apply rbind_ok in E as ([[ras m1] c1] & E1 & E). apply rbind_ok in E as ([[rbs' m2] c2] & E2 & E). injection E as <- <- <-.
      destruct (actions_good b V Gb _ _ _ _ E1) as (H1 & H2 & H3). destruct (IH Hv' Hg' _ _ _ _ E2) as (L1 & L2 & L3). split; [|split].
      + intros ms' I. constructor; [apply H1; intros x Hx; apply I, in_app_iff; auto|apply L1; intros x Hx; apply I, in_app_iff; auto].
      + intros known. apply installable_app; auto.
      + intros b' id [<-|Hb] Hi; rewrite map_app, in_app_iff; eauto.
  Qed.
  Lemma val_good_all v : val_good v.
  Proof.
    induction v as [|n|f x|t bs IH] using aval_ind'; unfold val_good; try discriminate.
    intros t' bs' c id ms c' [= <- <-] Hg E. rewrite group_to_ryu_eq in E.
    destruct (negb (str_in (str_upper t) group_types)); [discriminate|].
    apply rbind_ok in E as ([id' c0] & E0 & E). apply rbind_ok in E as ([[rbs msgs] c1] & E1 & E). injection E as <- <- <-.
    inversion Hg as [x Ho _ Ex|t' bs' Hb Ex]; [exfalso; subst x; now apply (ordinary_not_group _ t bs Ho)|]. subst.
    destruct (buckets_good bs IH) with (2 := E1) as (H1 & H2 & H3).
    { apply Forall_forall. intros b Hin. apply Forall_forall. intros a Ha. eauto. }
    split; [|split].
    - intros ms' I. apply (m_group ms' id' t rbs bs); [apply I, in_app_iff; right; now left|]. apply H1. intros x Hx. apply I, in_app_iff. auto.
    - intros known. apply installable_app; auto. intros k' I1 I2. cbn [installable gm_buckets]. split; [|exact Logic.I]. intros b id Hb' Hi. apply I1. eauto.
    - rewrite map_app, in_app_iff. right. now left.
  Qed.
  Lemma actions_good_all l c ras ms c' : Forall group_objects l -> A l c = Ok (ras, ms, c') -> good ras ms l.
  Proof. intros Hg. apply actions_good; auto. apply Forall_forall. intros a _. apply val_good_all. Qed.

  (** *** Group numbers *)
  Definition low (z : Z) : Z := z mod 65536.
  Lemma low_lor a b : low (Z.lor a b) = Z.lor (low a) (low b).
  Proof. unfold low. change 65536 with (2 ^ 16). rewrite <- !Z.land_ones by lia. apply Z.land_lor_distr_l. Qed.
  Lemma low_shift x k : 16 <= k -> low (Z.shiftl x k) = 0.
  Proof.
    intros H. unfold low. rewrite Z.shiftl_mul_pow2 by lia. replace k with (16 + (k - 16)) by lia. rewrite Z.pow_add_r by lia.
    rewrite Z.mul_assoc, (Z.mul_comm x), <- Z.mul_assoc. change 65536 with (2 ^ 16). now rewrite Z.mul_comm, Z.mod_mul.
  Qed.
  Lemma Ok_inj {X} (x y : X) : Ok x = Ok y -> x = y. Proof. now intros [= ->]. Qed.
  Local Opaque Z.lor Z.shiftl low.
  Lemma counted_id name b c id c' : name <> "L2 Interface" -> name <> "L2 Unfiltered Interface" ->
    group_ofdpa_id (Some name) vlan b c = Ok (id, c') -> c' = c + 1 /\ low id = low (c + 1).
  Proof.
    intros N1 N2 E. unfold group_ofdpa_id in E.
    destruct (String.eqb_spec name "L2 Interface") as [|_]; [contradiction|].
    destruct (String.eqb_spec name "L2 Unfiltered Interface") as [|_]; [contradiction|].
    cbv zeta in E.
    assert (L1 : forall x y, low (Z.lor (Z.shiftl x 28) y) = low y).
    { intros x y. rewrite low_lor, low_shift by lia. apply Z.lor_0_l. }
    assert (L2 : forall x v y, low (Z.lor (Z.lor (Z.shiftl x 28) (Z.shiftl v 16)) y) = low y).
    { intros x v y. rewrite !low_lor, !low_shift by lia. reflexivity. }
    destruct vlan as [v|]; cbn [rbind] in E;
    repeat (match type of E with (if ?b then _ else _) = _ => destruct b end;
      [first [discriminate E | apply Ok_inj in E; apply pair_equal_spec in E as [<- <-]; split; [reflexivity|rewrite ?L2, ?L1; reflexivity]]|]);
    apply Ok_inj in E; apply pair_equal_spec in E as [<- <-]; split; reflexivity.
  Qed.
  Local Transparent Z.lor Z.shiftl low.
  Definition block (c : Z) (n : nat) : list Z := map (fun i => low (c + 1 + Z.of_nat i)) (seq 0 n).
  Lemma block_app c n m : block c (n + m) = block c n ++ block (c + Z.of_nat n) m.
  Proof.
    unfold block. rewrite seq_app, map_app. f_equal. cbn [Nat.add]. rewrite <- (Nat.add_0_r n) at 1.
    generalize 0%nat. induction m as [|m IH]; intros k; [reflexivity|]. cbn [seq map]. f_equal; [f_equal; lia|].
    rewrite <- (IH (S k)). f_equal. f_equal. lia.
  Qed.
  Lemma block_S c n : block c (S n) = low (c + 1) :: block (c + 1) n.
  Proof. change (S n) with (1 + n)%nat. rewrite block_app. cbn [block seq map app]. f_equal. f_equal. lia. Qed.
  Definition numbered (c : Z) (ms : list group_mod) (c' : Z) : Prop :=
    exists n, c' = c + Z.of_nat n /\ Permutation (map (fun m => low (gm_id m)) ms) (block c n).
  Lemma numbered_nil c : numbered c [] c. Proof. exists 0%nat. split; [lia|constructor]. Qed.
  Lemma numbered_app c m1 c1 m2 c2 : numbered c m1 c1 -> numbered c1 m2 c2 -> numbered c (m1 ++ m2) c2.
  Proof.
    intros (n1 & -> & P1) (n2 & -> & P2). exists (n1 + n2)%nat. split; [lia|]. rewrite map_app, block_app. now apply Permutation_app.
  Qed.
  Definition val_num (v : aval) : Prop := forall t bs c id ms c', v = VGroup t bs -> counted link ("GROUP", v) -> G v c = Ok (id, ms, c') -> numbered c ms c'.
  Lemma actions_num l : Forall (fun a => val_num (snd a)) l -> Forall (counted link) l ->
    forall c ras ms c', A l c = Ok (ras, ms, c') -> numbered c ms c'.
  Proof.
    induction l as [|a l IH]; intros Hv Hg c ras ms c' E; cbn [actions_to_ryu] in E.
    - injection E as <- <- <-. apply numbered_nil.
    - inversion Hv as [|? ? V Hv']; subst. inversion Hg as [|? ? Ga Hg']; subst.
      apply rbind_ok in E as ([[ra m1] c1] & E1 & E). apply rbind_ok in E as ([[ras' m2] c2] & E2 & E). injection E as <- <- <-.
      apply (numbered_app _ _ c1); [|eapply IH; eauto].
      destruct (String.eqb_spec (fst a) "GROUP") as [F|_].
      + destruct a as [n v]. cbn [fst snd] in *. subst n. destruct v as [| | |t bs]; try (injection E1 as _ <- <-; apply numbered_nil).
        apply rbind_ok in E1 as ([[gid m1'] c1'] & E1 & E1'). injection E1' as _ <- <-. eapply V; eauto.
      + apply rbind_ok in E1 as (ra' & E1 & E1'). injection E1' as _ <- <-. apply numbered_nil.
  Qed.
  Lemma buckets_num bs : Forall (Forall (fun a => val_num (snd a))) bs -> Forall (Forall (counted link)) bs ->
    forall c rbs ms c', buckets_to_ryu bs c = Ok (rbs, ms, c') -> numbered c ms c'.
  Proof.
    induction bs as [|b bs IH]; intros Hv Hg c rbs ms c' E; cbn [buckets_to_ryu] in E.
    - injection E as <- <- <-. apply numbered_nil.
    - inversion Hv as [|? ? V Hv']; subst. inversion Hg as [|? ? Gb Hg']; subst.
      apply rbind_ok in E as ([[ras m1] c1] & E1 & E). apply rbind_ok in E as ([[rbs' m2] c2] & E2 & E). injection E as <- <- <-.
      apply (numbered_app _ _ c1); [eapply actions_num; eauto|eapply IH; eauto].
  Qed.
  Lemma val_num_all v : val_num v.
  Proof.
    induction v as [|n|f x|t bs IH] using aval_ind'; unfold val_num; try discriminate.
    intros t' bs' c id ms c' [= <- <-] Hg E. rewrite group_to_ryu_eq in E.
    destruct (negb (str_in (str_upper t) group_types)); [discriminate|].
    apply rbind_ok in E as ([id' c0] & E0 & E). apply rbind_ok in E as ([[rbs msgs] c1] & E1 & E). injection E as <- <- <-.
    inversion Hg as [x Ho Ex|t' bs' name L N1 N2 Hb Ex]; [exfalso; subst x; now apply (Ho t bs)|]. subst. rewrite L in E0.
    destruct (counted_id name _ _ _ _ N1 N2 E0) as [-> LI].
    assert (N : numbered (c + 1) msgs c1).
    { eapply buckets_num; eauto. apply Forall_forall. intros b Hin. apply Forall_forall. intros a Ha. eauto. }
    destruct N as (n & -> & P). exists (S n). split; [lia|]. rewrite block_S, map_app. cbn [map gm_id]. rewrite LI, P.
    apply Permutation_sym, Permutation_cons_append.
  Qed.
  Lemma actions_num_all l c ras ms c' : Forall (counted link) l -> A l c = Ok (ras, ms, c') -> numbered c ms c'.
  Proof. intros Hg. apply actions_num; auto. apply Forall_forall. intros a _. apply val_num_all. Qed.
  Lemma block_nodup c n : (Z.of_nat n <= 65536) -> NoDup (block c n).
  Proof.
    intros H. unfold block. assert (K : forall k m, (k + m <= n)%nat -> NoDup (map (fun i => low (c + 1 + Z.of_nat i)) (seq k m))).
    2:{ apply K. lia. }
    intros k m. revert k. induction m as [|m IH]; intros k Hk; cbn [seq map]; constructor; [|apply IH; lia].
    intros Hin. apply in_map_iff in Hin as (j & Ej & Hj). apply in_seq in Hj. unfold low in Ej.
    assert (D : (c + 1 + Z.of_nat j - (c + 1 + Z.of_nat k)) mod 65536 = 0) by (rewrite Zminus_mod, Ej, Z.sub_diag; reflexivity).
    replace (c + 1 + Z.of_nat j - (c + 1 + Z.of_nat k)) with (Z.of_nat j - Z.of_nat k) in D by lia.
    rewrite Z.mod_small in D by lia. lia.
  Qed.
  Lemma numbered_nodup c ms c' : numbered c ms c' -> c' - c <= 65536 -> NoDup (map gm_id ms).
  Proof.
    intros (n & -> & P) H. assert (N := block_nodup c n ltac:(lia)). apply (Permutation_NoDup (Permutation_sym P)) in N.
    rewrite <- (map_map gm_id low) in N. now apply NoDup_map_inv in N.
  Qed.
  Lemma instructions_good i c is ms c' : instructions_to_ryu link vlan i c = Ok (is, ms, c') ->
    Forall group_objects (al_iter (write_actions i)) -> Forall group_objects (al_iter (apply_actions i)) ->
    (forall known, installable known ms) /\
    (forall l, In (OFPInstructionWriteActions l) is -> list_means ms l (al_iter (write_actions i)) /\ incl (refs l) (map gm_id ms)) /\
    (forall l, In (OFPInstructionApplyActions l) is -> list_means ms l (al_iter (apply_actions i)) /\ incl (refs l) (map gm_id ms)) /\
    (Forall (counted link) (al_iter (write_actions i)) -> Forall (counted link) (al_iter (apply_actions i)) -> numbered c ms c').
  Proof.
    intros E Gw Ga. unfold instructions_to_ryu in E. destruct (write_metadata i); [discriminate|].
    apply rbind_ok in E as ([[ws m1] c1] & E1 & E). apply rbind_ok in E as ([[acts m2] c2] & E2 & E). destruct (meter i); [discriminate|].
    injection E as <- <- <-.
    assert (H1 : exists rw, (ws = [] \/ ws = [OFPInstructionWriteActions rw]) /\ (ws = [] \/ good rw m1 (al_iter (write_actions i))) /\
      (forall known, installable known m1) /\ (Forall (counted link) (al_iter (write_actions i)) -> numbered c m1 c1)).
    { destruct (al_is_empty (write_actions i)).
      - injection E1 as <- <- <-. exists []. split; auto. split; auto. split; [intros; exact Logic.I|intros; apply numbered_nil].
      - apply rbind_ok in E1 as ([[rw m1'] c1'] & E1 & E1'). injection E1' as <- <- <-. exists rw.
        assert (Q := actions_good_all _ _ _ _ _ Gw E1). split; auto. split; auto. split; [apply Q|]. intros C. exact (actions_num_all _ _ _ _ _ C E1). }
    assert (H2 : exists ra, (acts = [] \/ acts = [OFPInstructionApplyActions ra]) /\ (acts = [] \/ good ra m2 (al_iter (apply_actions i))) /\
      (forall known, installable known m2) /\ (Forall (counted link) (al_iter (apply_actions i)) -> numbered c1 m2 c2)).
    { destruct (al_is_empty (apply_actions i)).
      - injection E2 as <- <- <-. exists []. split; auto. split; auto. split; [intros; exact Logic.I|intros; apply numbered_nil].
      - apply rbind_ok in E2 as ([[ra m2'] c2'] & E2 & E2'). injection E2' as <- <- <-. exists ra.
        assert (Q := actions_good_all _ _ _ _ _ Ga E2). split; auto. split; auto. split; [apply Q|]. intros C. exact (actions_num_all _ _ _ _ _ C E2). }
    destruct H1 as (rw & W1 & W2 & W3 & W4), H2 as (ra & A1 & A2 & A3 & A4). clear E1 E2.
    split; [|split; [|split]].
    - intros known. apply installable_app; auto.
    - intros l Hin. rewrite !in_app_iff in Hin. destruct Hin as [Hin|[Hin|[Hin|Hin]]].
      + exfalso. destruct (goto_table i); [destruct Hin as [Hin|[]]; discriminate|destruct Hin].
      + destruct W1 as [-> | ->]; [destruct Hin|]. destruct Hin as [Hin|[]]; injection Hin as ->. destruct W2 as [W2|(G1 & _ & G3)]; [discriminate|].
        split; [apply G1; intros x Hx; apply in_app_iff; auto|]. intros x Hx. rewrite map_app, in_app_iff. auto.
      + exfalso. destruct A1 as [-> | ->]; [destruct Hin|]. destruct Hin as [Hin|[]]; discriminate.
      + exfalso. destruct (clear_actions i); [destruct Hin as [Hin|[]]; discriminate|destruct Hin].
    - intros l Hin. rewrite !in_app_iff in Hin. destruct Hin as [Hin|[Hin|[Hin|Hin]]].
      + exfalso. destruct (goto_table i); [destruct Hin as [Hin|[]]; discriminate|destruct Hin].
      + exfalso. destruct W1 as [-> | ->]; [destruct Hin|]. destruct Hin as [Hin|[]]; discriminate.
      + destruct A1 as [-> | ->]; [destruct Hin|]. destruct Hin as [Hin|[]]; injection Hin as ->. destruct A2 as [A2|(G1 & _ & G3)]; [discriminate|].
        split; [apply G1; intros x Hx; apply in_app_iff; auto|]. intros x Hx. rewrite map_app, in_app_iff. auto.
      + exfalso. destruct (clear_actions i); [destruct Hin as [Hin|[]]; discriminate|destruct Hin].
    - intros Cw Ca. eapply numbered_app; eauto.
  Qed.
End Groups.

(** ** Rulesets *)
(** a rule as the other converters build them, without Group objects, metadata or meter *)
Definition plain_rule (r : registry) (ru : core) : Prop :=
  match_ok r (rmatch ru) /\ Forall (normed r) (m_items (rmatch ru)) /\ Forall carried (m_items (rmatch ru)) /\
  write_metadata (inst ru) = None /\ meter (inst ru) = None /\
  (exists xs, al_of xs = Ok (apply_actions (inst ru)) /\ Forall ordinary xs) /\
  (exists ws, as_of ws = Ok (write_actions (inst ru)) /\ Forall ordinary ws).
Lemma plain_rule_trip link r ru c : reg_ok r -> plain_rule r ru ->
  exists f ru', rule_to_ryu link ru c = Ok (f, [], c) /\ rule_from_ryu r f = Ok (r, ru') /\ core_eqb ru ru' = true.
Proof.
  intros Hr (Hm & Hn & Hc & W & M & (xs & Ha & Oa) & (ws & Hw & Ow)).
  destruct ru as [p ck m [goto a w wm clear mt] t]. cbn [rmatch inst write_metadata meter apply_actions write_actions] in *. subst wm mt.
  apply (rule_trip link r m xs ws); auto.
  - apply (Permutation_Forall (al_ok_iter_perm _ _ (al_of_ok _ _ Ha)) Oa).
  - apply Forall_forall. intros x Hx. rewrite Forall_forall in Ow. apply Ow.
    destruct (as_of_inv _ _ Hw) as (Hok & _ & _ & Hwin & _). apply winner_in. apply Hwin.
    exact (Permutation_in _ (Permutation_sym (al_ok_iter_perm _ _ Hok)) Hx).
Qed.
Lemma ruleset_trip link r l : reg_ok r -> Forall (plain_rule r) l -> forall c,
  exists fs l', ruleset_to_ryu link l c = Ok (fs, c) /\ ruleset_from_ryu r fs = Ok (r, l') /\ Forall2 (fun a b => core_eqb a b = true) l l'.
Proof.
  intros Hr. induction 1 as [|ru l H _ IH]; intros c; [exists [], []; split; [reflexivity|split; [reflexivity|constructor]]|].
  destruct (plain_rule_trip link r ru c Hr H) as (f & ru' & E1 & E2 & E3). destruct (IH c) as (fs & l' & F1 & F2 & F3).
  exists (f :: fs), (ru' :: l'). cbn [ruleset_to_ryu ruleset_from_ryu]. rewrite E1. cbn [rbind]. rewrite F1. cbn [rbind]. rewrite E2. cbn [rbind]. rewrite F2.
  split; [reflexivity|]. split; [reflexivity|constructor; auto].
Qed.
Lemma built_match items r m : match_append_all registry_init match_new items = (r, m) -> reg_ok r /\ match_ok r m /\ Forall (normed r) (m_items m).
Proof.
  intros E. assert (A := match_append_all_ok items registry_init match_new reg_init_ok (match_new_ok _)). rewrite E in A. destruct A as (A1 & A2 & _).
  split; auto. split; auto. assert (N := append_all_normed items registry_init match_new reg_init_ok (match_new_ok _) (Forall_nil _)). now rewrite E in N.
Qed.
