(** Demotion, promotion and the simulated egress of push and pop (C41, C42). *)
From Coq Require Import ZifyBool ZifyNat ZifyN.
From Verif Require Import SingleTable SpecTags MatchWcProofs MatchProofs ActionProofs MergeProofs.
Local Open Scope string_scope.
Local Open Scope list_scope.
Local Open Scope Z_scope.
Local Opaque NB WC_FULLWC oxm_fields registry_init.

(** ** Names *)
Lemma append_assoc_nil (f : string) : (f ++ "")%string = f.
Proof. induction f as [|c f IH]; cbn; [reflexivity|now rewrite IH]. Qed.
Lemma compare_app f a b : String.compare (f ++ a) (f ++ b) = String.compare a b.
Proof. induction f as [|c f IH]; cbn; [reflexivity|]. unfold Ascii.compare. rewrite N.compare_refl. exact IH. Qed.
Lemma app_inj f (a b : string) : (f ++ a = f ++ b)%string -> a = b.
Proof. induction f as [|c f IH]; cbn; [auto|]. intros H. injection H as H. auto. Qed.
Lemma prefix_app f a : String.prefix f (f ++ a) = true.
Proof. induction f as [|c f IH]; cbn; [destruct a; reflexivity|]. destruct (Ascii.ascii_dec c c); [auto|contradiction]. Qed.
Lemma length_app f a : String.length (f ++ a) = (String.length f + String.length a)%nat.
Proof. induction f as [|c f IH]; cbn; [reflexivity|now rewrite IH]. Qed.
Lemma substring_all a : String.substring 0 (String.length a) a = a.
Proof. induction a as [|c a IH]; cbn; [reflexivity|now rewrite IH]. Qed.
Lemma suffix_app f a : suffix f (f ++ a) = a.
Proof.
  unfold suffix. rewrite length_app. replace (String.length f + String.length a - String.length f)%nat with (String.length a) by lia.
  induction f as [|c f IH]; [apply substring_all|]. cbn. exact IH.
Qed.
Lemma lvl_neq f a b : a <> b -> (f ++ a <> f ++ b)%string. Proof. intros H E. apply H. eapply app_inj; eauto. Qed.
Lemma f_neq f a : a <> "" -> (f ++ a <> f)%string.
Proof. intros H E. apply H. apply (app_inj f). now rewrite append_assoc_nil. Qed.

(** ** The order in which demote_match visits the levels *)
Lemma sort3 (a b c : string) l : String.compare a b = Gt -> String.compare a c = Gt -> String.compare b c = Gt ->
  NoDup l -> (forall x, In x l -> x = a \/ x = b \/ x = c) ->
  sort_desc l = filter (fun x => existsb (String.eqb x) l) [a; b; c].
Proof.
  intros Cab Cac Cbc ND HI.
  assert (Cba : String.compare b a = Lt) by (rewrite String.compare_antisym, Cab; reflexivity).
  assert (Cca : String.compare c a = Lt) by (rewrite String.compare_antisym, Cac; reflexivity).
  assert (Ccb : String.compare c b = Lt) by (rewrite String.compare_antisym, Cbc; reflexivity).
  assert (Rf : forall x, String.compare x x = Eq).
  { intros x. rewrite <- (append_assoc_nil x). rewrite compare_app. reflexivity. }
  assert (Nab : a <> b) by (intros ->; rewrite Rf in Cab; discriminate).
  assert (Nac : a <> c) by (intros ->; rewrite Rf in Cac; discriminate).
  assert (Nbc : b <> c) by (intros ->; rewrite Rf in Cbc; discriminate).
  assert (E : forall x y : string, x <> y -> String.eqb x y = false) by (intros x y; apply String.eqb_neq).
  assert (Nba : b <> a) by auto. assert (Nca : c <> a) by auto. assert (Ncb : c <> b) by auto.
  destruct l as [|x l]; [reflexivity|].
  destruct l as [|y l]; [|destruct l as [|z l]; [|destruct l as [|w l]]].
  - destruct (HI x (or_introl eq_refl)) as [-> | [-> | ->]]; cbn [sort_desc fold_right insert_desc filter existsb];
      rewrite ?String.eqb_refl, ?(E a b), ?(E a c), ?(E b c), ?(E b a), ?(E c a), ?(E c b) by auto; reflexivity.
  - assert (Nxy : x <> y) by (inversion ND as [|? ? H]; subst; intros ->; apply H; now left).
    destruct (HI x (or_introl eq_refl)) as [-> | [-> | ->]]; destruct (HI y (or_intror (or_introl eq_refl))) as [-> | [-> | ->]]; try contradiction;
      cbn [sort_desc fold_right insert_desc filter existsb]; rewrite ?Cab, ?Cac, ?Cbc, ?Cba, ?Cca, ?Ccb;
      rewrite ?String.eqb_refl, ?(E a b), ?(E a c), ?(E b c), ?(E b a), ?(E c a), ?(E c b) by auto; reflexivity.
  - inversion ND as [|? ? H ND']; subst. inversion ND' as [|? ? H' _]; subst.
    assert (Nxy : x <> y) by (intros ->; apply H; now left). assert (Nxz : x <> z) by (intros ->; apply H; right; now left).
    assert (Nyz : y <> z) by (intros ->; apply H'; now left).
    destruct (HI x (or_introl eq_refl)) as [-> | [-> | ->]]; destruct (HI y (or_intror (or_introl eq_refl))) as [-> | [-> | ->]]; try contradiction;
      destruct (HI z (or_intror (or_intror (or_introl eq_refl)))) as [-> | [-> | ->]]; try contradiction;
      cbn [sort_desc fold_right insert_desc filter existsb]; rewrite ?Cab, ?Cac, ?Cbc, ?Cba, ?Cca, ?Ccb; cbn [insert_desc]; rewrite ?Cab, ?Cac, ?Cbc, ?Cba, ?Cca, ?Ccb;
      rewrite ?String.eqb_refl, ?(E a b), ?(E a c), ?(E b c), ?(E b a), ?(E c a), ?(E c b) by auto; reflexivity.
  - exfalso. assert (Q : (List.length (x :: y :: z :: w :: l) <= List.length [a; b; c])%nat).
    { apply NoDup_incl_length; [auto|]. intros u Hu. specialize (HI u Hu). cbn. intuition auto. }
    cbn in Q. lia.
Qed.

Local Notation l1 f := (f ++ "1")%string.
Local Notation l2 f := (f ++ "2")%string.
Definition tidy (m : Match) (f : string) : Prop := forall k, In k (mkeys m) -> String.prefix f k = true -> k = f \/ k = l1 f \/ k = l2 f.
Lemma var_in m f x : In x (variations m f) <-> mhas m x = true /\ String.prefix f x = true.
Proof. unfold variations. rewrite filter_In, mhas_keys. tauto. Qed.
Lemma filter_ext_in' {A} (f g : A -> bool) l : (forall x, In x l -> f x = g x) -> filter f l = filter g l.
Proof. induction l as [|a l IH]; intros H; [reflexivity|]. cbn [filter]. rewrite (H a (or_introl eq_refl)), IH; auto. intros x Hx. apply H. now right. Qed.
Lemma prefix_self f : String.prefix f f = true.
Proof. rewrite <- (append_assoc_nil f) at 2. apply prefix_app. Qed.
Lemma demote_order r m f : match_ok r m -> tidy m f -> sort_desc (variations m f) = filter (mhas m) [l2 f; l1 f; f].
Proof.
  intros Hm Ht. rewrite (sort3 (l2 f) (l1 f) f).
  - apply filter_ext_in'. intros x Hx. apply eq_true_iff_eq. rewrite existsb_eqb, var_in.
    assert (P : String.prefix f x = true) by (destruct Hx as [<-|[<-|[<-|[]]]]; auto using prefix_app, prefix_self). tauto.
  - now rewrite compare_app.
  - rewrite <- (append_assoc_nil f) at 2. now rewrite compare_app.
  - rewrite <- (append_assoc_nil f) at 2. now rewrite compare_app.
  - apply NoDup_filter. apply Hm.
  - intros x Hx. apply var_in in Hx as [H1 H2]. apply mhas_keys in H1. destruct (Ht x H1 H2) as [-> | [-> | ->]]; auto.
Qed.

(** ** Moving a value to another level *)
(** the value has no bits outside the mask *)
Definition zeroed (b : Z) (x : option (Z * option Z * Z)) : Prop :=
  forall v mk id, x = Some (v, mk, id) -> forall j, 0 <= j < b -> mask_bit mk j = false -> Z.testbit v j = false.
(** what is left of the value, in a field of [b] bits *)
Definition moved (b : Z) (x y : option (Z * option Z * Z)) : Prop :=
  (x = None <-> y = None) /\ (forall j, 0 <= j < b -> ibit x j = ibit y j) /\ (zeroed b x -> zeroed b y) /\
  (forall v id, x = Some (v, None, id) -> exists id', y = Some (v, None, id')).
Definition wide (n : string) (b : Z) : Prop := 0 < b /\ exists s, In s layout /\ sl_name s = n /\ sl_bits s = b.
Lemma moved_refl b x : moved b x x. Proof. split; [tauto|]. split; [auto|]. split; eauto. Qed.
Lemma moved_trans b x y z : moved b x y -> moved b y z -> moved b x z.
Proof.
  intros (A1 & A2 & A3 & A4) (B1 & B2 & B3 & B4). split; [tauto|]. split; [intros j Hj; rewrite A2, B2; auto|]. split; [auto|].
  intros v id E. destruct (A4 v id E) as (id' & E'). eauto.
Qed.

Lemma append_moved r m name v mk id b : reg_ok r -> match_ok r m -> wide name b ->
  runs (s_append m name v mk) r (fun r' m' => match_ok r' m' /\
    (exists x, moved b (Some (v, mk, id)) (Some x) /\ (mk = None -> exists id', x = (v, None, id')) /\
      forall n, mget m' n = if String.eqb name n then Some x else mget m n)).
Proof.
  intros Hr Hm (Hb & s & Hs & Hn & Hsb). unfold s_append. assert (H := match_append_ok r m name v mk Hr Hm).
  destruct (match_append r m name v mk) as [r' m'] eqn:E. destruct H as (H1 & H2 & H3).
  exists r', m'. unfold runs. rewrite E. split; [reflexivity|]. split; auto. split; [exact H3|]. split; auto.
  unfold match_append in E. assert (Hid := oxm_name_to_id_ok r name Hr).
  destruct (oxm_name_to_id r name) as [r1 id1]. destruct Hid as [Hr' [[b1 Hid] _]]. rewrite Hid in E.
  destruct (append_norm b1 v mk) as [v' mk'] eqn:En. injection E as <- <-.
  destruct (reg_bits_known r1 name s Hr' Hs Hn) as [i2 Hb1]. rewrite Hid in Hb1. injection Hb1 as _ ->. subst b.
  exists (v', mk', id1). split; [|split; [intros ->; unfold append_norm in En; injection En as <- <-; eauto|intros n; unfold mget; cbn [m_items]; apply dict_get_set]].
  split; [split; discriminate|]. split.
  - intros j Hj. symmetry. rewrite (ibit_id v' mk' id1 0), (ibit_id v mk id 0). eapply append_norm_bit; eauto.
  - split; [|intros v0 id0 [= <- -> <-]; unfold append_norm in En; injection En as <- <-; eauto].
    intros Z0 v1 mk1 id2 [= <- <- <-]. specialize (Z0 v mk id eq_refl). unfold append_norm in En. destruct mk as [k|]; [|injection En as <- <-; auto].
    destruct ((sl_bits s =? 0) || (k =? 0)); [injection En as <- <-; auto|]. injection En as <- <-.
    set (k' := Z.land k (2 ^ sl_bits s - 1)) in *. destruct (k' =? 2 ^ sl_bits s - 1); intros j Hj Hm0; [discriminate Hm0|].
    unfold mask_bit in Hm0. now rewrite Z.land_spec, Hm0, andb_false_r.
Qed.
(** append under another name, then delete *)
Lemma move_runs r m a c v mk id b : reg_ok r -> match_ok r m -> a <> c -> mget m a = Some (v, mk, id) -> wide c b ->
  runs (sdo m <- s_append m c v mk; s_del m a) r (fun r' m' => match_ok r' m' /\
    exists x, moved b (mget m a) (Some x) /\ forall n, mget m' n = if String.eqb a n then None else if String.eqb c n then Some x else mget m n).
Proof.
  intros Hr Hm Hac Ha Hw. eapply runs_bind; [apply (append_moved r m c v mk id b); auto|]. intros r1 m1 R1 L1 (M1 & x & X1 & X2 & G1).
  assert (A1 : mget m1 a = mget m a) by (rewrite G1; destruct (String.eqb_spec c a); [congruence|reflexivity]).
  eapply runs_weaken; [apply del_runs; auto|].
  - unfold mhas. rewrite A1, Ha. reflexivity.
  - intros r2 m2 _ _ (M2 & G2). split; [auto|]. exists x. split; [rewrite Ha; auto|]. intros n. rewrite G2, G1. reflexivity.
Qed.
Lemma runs_eqb {A} (c : st A) r post : runs c r post -> exists r' a, c r = (r', Ok a) /\ reg_ok r' /\ rle r r' /\ post r' a.
Proof. apply runs_eq. Qed.

(** ** One step of each loop *)
Lemma str1 : str_of 1 = "1". Proof. reflexivity. Qed.
Lemma str2 : str_of 2 = "2". Proof. reflexivity. Qed.
Lemma int1 : int_of "1" = Ok 1. Proof. reflexivity. Qed.
Lemma int2 : int_of "2" = Ok 2. Proof. reflexivity. Qed.
Lemma eqb_lvl f a : a <> "" -> String.eqb (f ++ a) f = false.
Proof. intros H. apply String.eqb_neq. now apply f_neq. Qed.

Lemma demote_inner f n m bd a k v mk id r : a <> "" -> int_of a = Ok k -> k + n <= 2 -> mget m (f ++ a)%string = Some (v, mk, id) ->
  demote_one f n (m, bd) (f ++ a) r = (sdo m' <- (sdo m <- s_append m (f ++ str_of (k + n)) v mk; s_del m (f ++ a)); sret (m', true)) r.
Proof.
  intros Ha Hk Hn Hg. unfold demote_one. rewrite eqb_lvl by auto. cbn [negb]. rewrite suffix_app, Hk. unfold sbind at 1, slift at 1. cbv iota beta zeta.
  unfold HEADER_DEPTH. destruct (Z.ltb_spec 2 (k + n)); [lia|]. unfold sbind at 1, s_get, slift at 1. rewrite Hg. unfold sbind.
  destruct (s_append m (f ++ str_of (k + n)) v mk r) as [r1 [m1|e]]; reflexivity.
Qed.
Lemma demote_inner_err f n m bd a k r : a <> "" -> int_of a = Ok k -> 2 < k + n -> demote_one f n (m, bd) (f ++ a) r = (r, Err OverflowError).
Proof.
  intros Ha Hk Hn. unfold demote_one. rewrite eqb_lvl by auto. cbn [negb]. rewrite suffix_app, Hk. unfold sbind at 1, slift at 1. cbv iota beta zeta.
  unfold HEADER_DEPTH. destruct (Z.ltb_spec 2 (k + n)); [reflexivity|lia].
Qed.
Lemma demote_base f n m bd v mk id r : n <= 2 -> mget m f = Some (v, mk, id) ->
  demote_one f n (m, bd) f r = (sdo m' <- (sdo m <- s_append m (f ++ str_of n) v mk; s_del m f); sret (m', bd)) r.
Proof.
  intros Hn Hg. unfold demote_one. rewrite String.eqb_refl. cbn [negb]. unfold HEADER_DEPTH. destruct (Z.ltb_spec 2 n); [lia|].
  unfold sbind at 1, s_get, slift at 1. rewrite Hg. unfold sbind. destruct (s_append m (f ++ str_of n) v mk r) as [r1 [m1|e]]; reflexivity.
Qed.
Lemma demote_base_err f n m bd r : 2 < n -> demote_one f n (m, bd) f r = (r, Err (if bd then OverflowError else UnboundLocalError)).
Proof.
  intros Hn. unfold demote_one. rewrite String.eqb_refl. cbn [negb]. unfold HEADER_DEPTH. destruct (Z.ltb_spec 2 n); [reflexivity|lia].
Qed.
Lemma promote_inner f n m a k v mk id r : a <> "" -> int_of a = Ok k -> 0 <= k - n -> mget m (f ++ a)%string = Some (v, mk, id) ->
  promote_one f n m (f ++ a) r = (sdo m <- s_append m (if (k =? n)%Z then f else (f ++ str_of (k - n))%string) v mk; s_del m (f ++ a)) r.
Proof.
  intros Ha Hk Hn Hg. unfold promote_one. rewrite eqb_lvl by auto. cbn [negb]. rewrite suffix_app, Hk. unfold sbind at 1, slift at 1. cbv iota beta zeta.
  destruct (Z.eqb_spec k n) as [->|N].
  - rewrite Z.sub_diag. cbn [Z.ltb Z.eqb Z.compare]. unfold sbind at 1, s_get, slift at 1. rewrite Hg. reflexivity.
  - destruct (Z.ltb_spec 0 (k - n)); [|lia]. unfold sbind at 1, s_get, slift at 1. rewrite Hg. reflexivity.
Qed.
Lemma promote_inner_err f n m a k r : a <> "" -> int_of a = Ok k -> k < n -> promote_one f n m (f ++ a) r = (r, Err OverflowError).
Proof.
  intros Ha Hk Hn. unfold promote_one. rewrite eqb_lvl by auto. cbn [negb]. rewrite suffix_app, Hk. unfold sbind at 1, slift at 1. cbv iota beta zeta.
  destruct (Z.ltb_spec 0 (k - n)); [lia|]. destruct (Z.eqb_spec (k - n) 0); [lia|reflexivity].
Qed.
Lemma promote_base_err f n m r : promote_one f n m f r = (r, Err OverflowError).
Proof. unfold promote_one. rewrite String.eqb_refl. reflexivity. Qed.

(** ** demote_match *)
Definition shifted (b : Z) (f : string) (m m' : Match) (x0 x1 x2 : option (Z * option Z * Z)) : Prop :=
  moved b x0 (mget m' f) /\ moved b x1 (mget m' (l1 f)) /\ moved b x2 (mget m' (l2 f)) /\
  forall n, n <> f -> n <> l1 f -> n <> l2 f -> mget m' n = mget m n.
Definition levels (f : string) (b : Z) : Prop := wide f b /\ wide (l1 f) b /\ wide (l2 f) b.
Lemma runs_step {A B} (c c' : st A) (k : A -> st B) r post : c r = c' r -> runs (sbind c' k) r post -> runs (sbind c k) r post.
Proof. intros E (r' & x & H & R). exists r', x. split; [|exact R]. revert H. unfold sbind. now rewrite E. Qed.
Lemma mhas_get m n : mhas m n = true -> exists v mk id, mget m n = Some (v, mk, id).
Proof. unfold mhas. destruct (mget m n) as [[[v mk] id]|]; [eauto|discriminate]. Qed.
Lemma mhas_none m n : mhas m n = false -> mget m n = None.
Proof. unfold mhas. destruct (mget m n); [discriminate|auto]. Qed.
Ltac names f := assert (N01 : f <> l1 f) by (intros E; symmetry in E; revert E; apply f_neq; discriminate);
  assert (N02 : f <> l2 f) by (intros E; symmetry in E; revert E; apply f_neq; discriminate);
  assert (N12 : l1 f <> l2 f) by (apply lvl_neq; discriminate).
Ltac eqbs := repeat match goal with
  | H : ?a <> ?b |- context [String.eqb ?a ?b] => rewrite (proj2 (String.eqb_neq a b) H)
  | H : ?a <> ?b |- context [String.eqb ?b ?a] => rewrite (proj2 (String.eqb_neq b a) (not_eq_sym H))
  | |- context [String.eqb ?a ?a] => rewrite (String.eqb_refl a) end.

Lemma demote1_runs r m f b : reg_ok r -> match_ok r m -> tidy m f -> levels f b -> mhas m (l2 f) = false ->
  runs (demote_match m f 1) r (fun r' m' => match_ok r' m' /\ shifted b f m m' None (mget m f) (mget m (l1 f))).
Proof.
  intros Hr Hm Ht (W0 & W1 & W2) H2. names f. unfold demote_match. cbn [Z.eqb]. rewrite (demote_order r m f Hm Ht). cbn [filter]. rewrite H2.
  apply mhas_none in H2. destruct (mhas m (l1 f)) eqn:E1, (mhas m f) eqn:E0.
  - apply mhas_get in E1 as (v1 & k1 & i1 & G1). apply mhas_get in E0 as (v0 & k0 & i0 & G0). cbn [sfold].
    eapply runs_bind with (post := fun r' (mb : Match * bool) => match_ok r' (fst mb) /\ shifted b f m (fst mb) None (mget m f) (mget m (l1 f))).
    2: { intros r2 [m2 b2] R2 L2 P2. apply runs_ret; auto. }
    eapply runs_step; [apply (demote_inner f 1 m false "1" 1 v1 k1 i1); try discriminate; auto; try lia; reflexivity|].
    change (1 + 1) with 2. rewrite str2.
    eapply runs_bind.
    { eapply runs_bind; [apply (move_runs r m (l1 f) (l2 f) v1 k1 i1 b); auto|]. intros r1 m1 R1 L1 P1. apply runs_ret with (post := fun r' mb => match_ok r' (fst mb) /\
        (exists x, moved b (mget m (l1 f)) (Some x) /\ forall n, mget (fst mb) n = if String.eqb (l1 f) n then None else if String.eqb (l2 f) n then Some x else mget m n)); auto. }
    intros r1 [m1 b1] R1 L1 (M1 & x & X1 & G). cbn [fst] in *.
    assert (G0' : mget m1 f = Some (v0, k0, i0)) by (rewrite G; eqbs; auto).
    eapply runs_step; [apply (demote_base f 1 m1 b1 v0 k0 i0); [lia|auto]|]. rewrite str1.
    eapply runs_bind; [eapply runs_bind; [apply (move_runs r1 m1 f (l1 f) v0 k0 i0 b); auto|]; intros r2 m2 R2 L2 P2; apply runs_ret with (post := fun r' mb => match_ok r' (fst mb) /\
        (exists x, moved b (mget m1 f) (Some x) /\ forall n, mget (fst mb) n = if String.eqb f n then None else if String.eqb (l1 f) n then Some x else mget m1 n)); auto|].
    intros r2 [m2 b2] R2 L2 (M2 & y & Y1 & G'). cbn [fst] in *. apply runs_ret; [auto|]. cbn [fst]. split; [auto|]. split; [|split; [|split]].
    + rewrite G'. eqbs. apply moved_refl.
    + rewrite G'. eqbs. rewrite G0. rewrite G0' in Y1. exact Y1.
    + rewrite G', G. eqbs. exact X1.
    + intros n Q0 Q1 Q2. rewrite G', G. eqbs. reflexivity.
  - apply mhas_get in E1 as (v1 & k1 & i1 & G1). apply mhas_none in E0. cbn [sfold].
    eapply runs_bind with (post := fun r' (mb : Match * bool) => match_ok r' (fst mb) /\ shifted b f m (fst mb) None (mget m f) (mget m (l1 f))).
    2: { intros r2 [m2 b2] R2 L2 P2. apply runs_ret; auto. }
    eapply runs_step; [apply (demote_inner f 1 m false "1" 1 v1 k1 i1); try discriminate; auto; try lia; reflexivity|].
    change (1 + 1) with 2. rewrite str2.
    eapply runs_bind.
    { eapply runs_bind; [apply (move_runs r m (l1 f) (l2 f) v1 k1 i1 b); auto|]. intros r1 m1 R1 L1 P1. apply runs_ret with (post := fun r' mb => match_ok r' (fst mb) /\
        (exists x, moved b (mget m (l1 f)) (Some x) /\ forall n, mget (fst mb) n = if String.eqb (l1 f) n then None else if String.eqb (l2 f) n then Some x else mget m n)); auto. }
    intros r1 [m1 b1] R1 L1 (M1 & x & X1 & G). cbn [fst] in *. apply runs_ret; [auto|]. cbn [fst]. split; [auto|]. split; [|split; [|split]].
    + rewrite G. eqbs. rewrite E0. apply moved_refl.
    + rewrite G. eqbs. rewrite E0. apply moved_refl.
    + rewrite G. eqbs. exact X1.
    + intros n Q0 Q1 Q2. rewrite G. eqbs. reflexivity.
  - apply mhas_none in E1. apply mhas_get in E0 as (v0 & k0 & i0 & G0). cbn [sfold].
    eapply runs_bind with (post := fun r' (mb : Match * bool) => match_ok r' (fst mb) /\ shifted b f m (fst mb) None (mget m f) (mget m (l1 f))).
    2: { intros r2 [m2 b2] R2 L2 P2. apply runs_ret; auto. }
    eapply runs_step; [apply (demote_base f 1 m false v0 k0 i0); [lia|auto]|]. rewrite str1.
    eapply runs_bind; [eapply runs_bind; [apply (move_runs r m f (l1 f) v0 k0 i0 b); auto|]; intros r2 m2 R2 L2 P2; apply runs_ret with (post := fun r' mb => match_ok r' (fst mb) /\
        (exists x, moved b (mget m f) (Some x) /\ forall n, mget (fst mb) n = if String.eqb f n then None else if String.eqb (l1 f) n then Some x else mget m n)); auto|].
    intros r2 [m2 b2] R2 L2 (M2 & y & Y1 & G'). cbn [fst] in *. apply runs_ret; [auto|]. cbn [fst]. split; [auto|]. split; [|split; [|split]].
    + rewrite G'. eqbs. apply moved_refl.
    + rewrite G'. eqbs. exact Y1.
    + rewrite G'. eqbs. rewrite E1, H2. apply moved_refl.
    + intros n Q0 Q1 Q2. rewrite G'. eqbs. reflexivity.
  - apply mhas_none in E1. apply mhas_none in E0. cbn [sfold]. eapply runs_bind; [apply runs_ret with (post := fun r' mb => fst mb = m /\ r' = r); auto|].
    intros r1 [m1 b1] R1 L1 [Em ->]. cbn [fst] in Em. subst m1. apply runs_ret; [auto|]. split; [auto|]. unfold shifted. rewrite E0, E1. split; [apply moved_refl|]. split; [apply moved_refl|].
    split; [rewrite H2; apply moved_refl|auto].
Qed.

Lemma demote2_runs r m f b : reg_ok r -> match_ok r m -> tidy m f -> levels f b -> mhas m (l2 f) = false -> mhas m (l1 f) = false ->
  runs (demote_match m f 2) r (fun r' m' => match_ok r' m' /\ shifted b f m m' None None (mget m f)).
Proof.
  intros Hr Hm Ht (W0 & W1 & W2) H2 H1. names f. unfold demote_match. cbn [Z.eqb]. rewrite (demote_order r m f Hm Ht). cbn [filter]. rewrite H2, H1.
  apply mhas_none in H1. apply mhas_none in H2. destruct (mhas m f) eqn:E0.
  - apply mhas_get in E0 as (v0 & k0 & i0 & G0). cbn [sfold].
    eapply runs_bind with (post := fun r' (mb : Match * bool) => match_ok r' (fst mb) /\ shifted b f m (fst mb) None None (mget m f)).
    2: { intros r2 [m2 b2] R2 L2 P2. apply runs_ret; auto. }
    eapply runs_step; [apply (demote_base f 2 m false v0 k0 i0); [lia|auto]|]. rewrite str2.
    eapply runs_bind; [eapply runs_bind; [apply (move_runs r m f (l2 f) v0 k0 i0 b); auto|]; intros r2 m2 R2 L2 P2; apply runs_ret with (post := fun r' mb => match_ok r' (fst mb) /\
        (exists x, moved b (mget m f) (Some x) /\ forall n, mget (fst mb) n = if String.eqb f n then None else if String.eqb (l2 f) n then Some x else mget m n)); auto|].
    intros r2 [m2 b2] R2 L2 (M2 & y & Y1 & G'). cbn [fst] in *. apply runs_ret; [auto|]. cbn [fst]. split; [auto|]. split; [|split; [|split]].
    + rewrite G'. eqbs. apply moved_refl.
    + rewrite G'. eqbs. rewrite H1. apply moved_refl.
    + rewrite G'. eqbs. exact Y1.
    + intros n Q0 Q1 Q2. rewrite G'. eqbs. reflexivity.
  - apply mhas_none in E0. cbn [sfold]. eapply runs_bind; [apply runs_ret with (post := fun r' mb => fst mb = m /\ r' = r); auto|].
    intros r1 [m1 b1] R1 L1 [Em ->]. cbn [fst] in Em. subst m1. apply runs_ret; [auto|]. split; [auto|]. unfold shifted. rewrite E0. split; [apply moved_refl|]. split; [rewrite H1; apply moved_refl|].
    split; [rewrite H2; apply moved_refl|auto].
Qed.
(** too deep *)
Lemma demote_err r m f n : match_ok r m -> tidy m f -> 1 <= n ->
  (mhas m (l2 f) = true \/ (mhas m (l1 f) = true /\ 2 <= n) \/ (mhas m f = true /\ 3 <= n)) ->
  demote_match m f n r = (r, Err (if mhas m (l2 f) || mhas m (l1 f) then OverflowError else UnboundLocalError)).
Proof.
  intros Hm Ht Hn H. unfold demote_match. destruct (Z.eqb_spec n 0); [lia|]. rewrite (demote_order r m f Hm Ht). cbn [filter]. unfold sbind.
  destruct (mhas m (l2 f)) eqn:E2.
  { cbn [sfold]. unfold sbind. rewrite (demote_inner_err f n m false "2" 2) by (try discriminate; try reflexivity; lia). reflexivity. }
  destruct (mhas m (l1 f)) eqn:E1.
  { cbn [sfold]. unfold sbind. rewrite (demote_inner_err f n m false "1" 1); [reflexivity|discriminate|reflexivity|]. destruct H as [H|[[_ H]|[_ H]]]; [discriminate|lia|lia]. }
  destruct H as [H|[[H _]|[H H3]]]; [discriminate|discriminate|]. rewrite H. cbn [sfold]. unfold sbind. rewrite demote_base_err by lia. reflexivity.
Qed.

(** ** promote_match *)
Lemma variations_single r m f a : match_ok r m -> tidy m f -> In a [f; l1 f; l2 f] -> mhas m a = true -> (forall x, In x [f; l1 f; l2 f] -> x <> a -> mhas m x = false) -> variations m f = [a].
Proof.
  intros Hm Ht Ia Ha Hx. assert (ND : NoDup (variations m f)) by (apply NoDup_filter; apply Hm).
  assert (Hin : forall x, In x (variations m f) -> x = a).
  { intros x Hi. apply var_in in Hi as [H1 H2]. apply mhas_keys in H1 as K. destruct (string_dec x a); [auto|]. exfalso.
    enough (mhas m x = false) by congruence. apply Hx; [|auto]. destruct (Ht x K H2) as [-> | [-> | ->]]; cbn; auto. }
  assert (Ina : In a (variations m f)).
  { apply var_in. split; [auto|]. destruct Ia as [<-|[<-|[<-|[]]]]; auto using prefix_app, prefix_self. }
  destruct (variations m f) as [|x [|y l]]; [destruct Ina|now rewrite (Hin x (or_introl eq_refl))|]. exfalso.
  inversion ND as [|? ? N _]; subst. apply N. left. rewrite (Hin x (or_introl eq_refl)), (Hin y (or_intror (or_introl eq_refl))). reflexivity.
Qed.
Lemma variations_none m f : tidy m f -> mhas m f = false -> mhas m (l1 f) = false -> mhas m (l2 f) = false -> variations m f = [].
Proof.
  intros Ht H0 H1 H2. destruct (variations m f) as [|x l] eqn:E; [reflexivity|]. exfalso. assert (Hi : In x (variations m f)) by (rewrite E; now left).
  apply var_in in Hi as [Q1 Q2]. apply mhas_keys in Q1 as K. destruct (Ht x K Q2) as [-> | [-> | ->]]; congruence.
Qed.
(** level 2 does not come before level 1 in the dict *)
Definition ascending (m : Match) (f : string) : Prop := ~ exists a b c, mkeys m = a ++ l2 f :: b ++ l1 f :: c.
Lemma filter_split {A} (g : A -> bool) l x y r : filter g l = x :: y :: r -> exists a b c, l = a ++ x :: b ++ y :: c.
Proof.
  revert x y r. induction l as [|u l IH]; intros x y r H; cbn [filter] in H; [discriminate|]. destruct (g u).
  - injection H as -> H. assert (Iy : In y l) by (apply (proj1 (filter_In g y l)); rewrite H; now left). apply in_split in Iy as (b & c & ->). exists [], b, c. reflexivity.
  - destruct (IH _ _ _ H) as (a & b & c & ->). exists (u :: a), b, c. reflexivity.
Qed.
Lemma variations_both r m f : match_ok r m -> tidy m f -> ascending m f -> mhas m f = false -> mhas m (l1 f) = true -> mhas m (l2 f) = true -> variations m f = [l1 f; l2 f].
Proof.
  intros Hm Ht Ha H0 H1 H2. names f. assert (ND : NoDup (variations m f)) by (apply NoDup_filter; apply Hm).
  assert (Hin : forall x, In x (variations m f) <-> x = l1 f \/ x = l2 f).
  { intros x. rewrite var_in. split.
    - intros [Q1 Q2]. apply mhas_keys in Q1 as K. destruct (Ht x K Q2) as [-> | [-> | ->]]; auto. congruence.
    - intros [-> | ->]; auto using prefix_app. }
  remember (variations m f) as l eqn:El. destruct l as [|x [|y [|z l]]].
  - destruct (proj2 (Hin (l1 f)) (or_introl eq_refl)).
  - exfalso. assert (A := proj2 (Hin (l1 f)) (or_introl eq_refl)). assert (B := proj2 (Hin (l2 f)) (or_intror eq_refl)). destruct A as [A|[]], B as [B|[]]. congruence.
  - inversion ND as [|? ? N1 _]; subst. destruct (proj1 (Hin x) (or_introl eq_refl)) as [-> | ->], (proj1 (Hin y) (or_intror (or_introl eq_refl))) as [-> | ->].
    + exfalso. apply N1. now left.
    + reflexivity.
    + exfalso. apply Ha. symmetry in El. apply filter_split in El. exact El.
    + exfalso. apply N1. now left.
  - exfalso. assert (Q : (List.length (x :: y :: z :: l) <= List.length [l1 f; l2 f])%nat) by (apply NoDup_incl_length; [auto|]; intros u Hu; apply Hin in Hu as [-> | ->]; cbn; auto). cbn in Q. lia.
Qed.
Lemma promote1_runs r m f b : reg_ok r -> match_ok r m -> tidy m f -> levels f b -> mhas m f = false -> ascending m f ->
  runs (promote_match m f 1) r (fun r' m' => match_ok r' m' /\ shifted b f m m' (mget m (l1 f)) (mget m (l2 f)) None).
Proof.
  intros Hr Hm Ht (W0 & W1 & W2) H0 Ha. names f. unfold promote_match. cbn [Z.eqb]. destruct (mhas m (l1 f)) eqn:E1, (mhas m (l2 f)) eqn:E2.
  - rewrite (variations_both r m f) by auto. apply mhas_none in H0. apply mhas_get in E1 as (v1 & k1 & i1 & G1). apply mhas_get in E2 as (v2 & k2 & i2 & G2). cbn [sfold].
    eapply runs_step; [apply (promote_inner f 1 m "1" 1 v1 k1 i1); try discriminate; auto; try lia; reflexivity|]. change (1 =? 1)%Z with true. cbv iota.
    eapply runs_bind; [apply (move_runs r m (l1 f) f v1 k1 i1 b); auto|]. intros r1 m1 R1 L1 (M1 & x & X1 & G).
    assert (G2' : mget m1 (l2 f) = Some (v2, k2, i2)) by (rewrite G; eqbs; auto).
    eapply runs_step; [apply (promote_inner f 1 m1 "2" 2 v2 k2 i2); try discriminate; auto; try lia; reflexivity|]. change (2 =? 1)%Z with false. cbv iota. change (2 - 1) with 1. rewrite str1.
    eapply runs_bind; [apply (move_runs r1 m1 (l2 f) (l1 f) v2 k2 i2 b); auto|]. intros r2 m2 R2 L2 (M2 & y & Y1 & G'). apply runs_ret; [auto|]. split; [auto|]. split; [|split; [|split]].
    + rewrite G', G. eqbs. exact X1.
    + rewrite G'. eqbs. rewrite G2. rewrite G2' in Y1. exact Y1.
    + rewrite G'. eqbs. apply moved_refl.
    + intros n Q0 Q1 Q2. rewrite G', G. eqbs. reflexivity.
  - rewrite (variations_single r m f (l1 f)); auto; [|cbn; auto|intros x [<-|[<-|[<-|[]]]] Nx; auto; contradiction]. apply mhas_none in H0. apply mhas_get in E1 as (v1 & k1 & i1 & G1). apply mhas_none in E2. cbn [sfold].
    eapply runs_step; [apply (promote_inner f 1 m "1" 1 v1 k1 i1); try discriminate; auto; try lia; reflexivity|]. change (1 =? 1)%Z with true. cbv iota.
    eapply runs_bind; [apply (move_runs r m (l1 f) f v1 k1 i1 b); auto|]. intros r1 m1 R1 L1 (M1 & x & X1 & G). apply runs_ret; [auto|]. split; [auto|]. split; [|split; [|split]].
    + rewrite G. eqbs. exact X1.
    + rewrite G. eqbs. rewrite E2. apply moved_refl.
    + rewrite G. eqbs. rewrite E2. apply moved_refl.
    + intros n Q0 Q1 Q2. rewrite G. eqbs. reflexivity.
  - rewrite (variations_single r m f (l2 f)); auto; [|cbn; auto|intros x [<-|[<-|[<-|[]]]] Nx; auto; contradiction]. apply mhas_none in H0. apply mhas_none in E1. apply mhas_get in E2 as (v2 & k2 & i2 & G2). cbn [sfold].
    eapply runs_step; [apply (promote_inner f 1 m "2" 2 v2 k2 i2); try discriminate; auto; try lia; reflexivity|]. change (2 =? 1)%Z with false. cbv iota. change (2 - 1) with 1. rewrite str1.
    eapply runs_bind; [apply (move_runs r m (l2 f) (l1 f) v2 k2 i2 b); auto|]. intros r2 m2 R2 L2 (M2 & y & Y1 & G'). apply runs_ret; [auto|]. split; [auto|]. split; [|split; [|split]].
    + rewrite G'. eqbs. rewrite E1, H0. apply moved_refl.
    + rewrite G'. eqbs. exact Y1.
    + rewrite G'. eqbs. apply moved_refl.
    + intros n Q0 Q1 Q2. rewrite G'. eqbs. reflexivity.
  - rewrite (variations_none m f) by auto. apply mhas_none in H0, E1, E2. cbn [sfold]. apply runs_ret; [auto|]. split; [auto|]. unfold shifted. rewrite H0, E1, E2. split; [apply moved_refl|]. split; [apply moved_refl|]. split; [apply moved_refl|auto].
Qed.
Lemma promote2_runs r m f b : reg_ok r -> match_ok r m -> tidy m f -> levels f b -> mhas m f = false -> mhas m (l1 f) = false ->
  runs (promote_match m f 2) r (fun r' m' => match_ok r' m' /\ shifted b f m m' (mget m (l2 f)) None None).
Proof.
  intros Hr Hm Ht (W0 & W1 & W2) H0 E1. names f. unfold promote_match. cbn [Z.eqb]. destruct (mhas m (l2 f)) eqn:E2.
  - rewrite (variations_single r m f (l2 f)); auto; [|cbn; auto|intros x [<-|[<-|[<-|[]]]] Nx; auto; contradiction]. apply mhas_none in H0. apply mhas_none in E1. apply mhas_get in E2 as (v2 & k2 & i2 & G2). cbn [sfold].
    eapply runs_step; [apply (promote_inner f 2 m "2" 2 v2 k2 i2); try discriminate; auto; try lia; reflexivity|]. change (2 =? 2)%Z with true. cbv iota.
    eapply runs_bind; [apply (move_runs r m (l2 f) f v2 k2 i2 b); auto|]. intros r2 m2 R2 L2 (M2 & y & Y1 & G'). apply runs_ret; [auto|]. split; [auto|]. split; [|split; [|split]].
    + rewrite G'. eqbs. exact Y1.
    + rewrite G'. eqbs. rewrite E1. apply moved_refl.
    + rewrite G'. eqbs. apply moved_refl.
    + intros n Q0 Q1 Q2. rewrite G'. eqbs. reflexivity.
  - rewrite (variations_none m f) by auto. apply mhas_none in H0, E1, E2. cbn [sfold]. apply runs_ret; [auto|]. split; [auto|]. unfold shifted. rewrite H0, E1, E2. split; [apply moved_refl|]. split; [apply moved_refl|]. split; [apply moved_refl|auto].
Qed.
(** a match on a header that is popped is never ignored *)
Lemma promote_fails r m f n a : 1 <= n -> In a (variations m f) -> (a = f \/ (a = l1 f /\ 2 <= n) \/ (a = l2 f /\ 3 <= n)) ->
  exists r' e, promote_match m f n r = (r', Err e).
Proof.
  intros Hn Hi Hc. unfold promote_match. destruct (Z.eqb_spec n 0); [lia|].
  assert (Herr : forall m r, exists r' e, promote_one f n m a r = (r', Err e)).
  { intros m0 r0. destruct Hc as [->|[[-> Q]|[-> Q]]]; [rewrite promote_base_err|rewrite (promote_inner_err f n m0 "1" 1) by (try discriminate; try reflexivity; lia)|rewrite (promote_inner_err f n m0 "2" 2) by (try discriminate; try reflexivity; lia)]; eauto. }
  clear Hc. remember (variations m f) as l eqn:El. clear El. revert m r. induction l as [|x l IH]; intros m r; [destruct Hi|]. cbn [sfold]. unfold sbind.
  destruct Hi as [->|Hi].
  - destruct (Herr m r) as (r' & e & E). rewrite E. eauto.
  - destruct (promote_one f n m x r) as [r1 [m1|e]]; [apply IH; auto|eauto].
Qed.

(** ** The matches as sets of packets *)
Lemma wide_slot n b s : wide n b -> In s layout -> sl_name s = n -> sl_bits s = b.
Proof. intros (_ & s' & Hs' & Hn' & Hb') Hs Hn. assert (s = s') by (apply slot_name_inj; auto; congruence). now subst. Qed.
Lemma fbit_slot p n s j : In s layout -> sl_name s = n -> fbit p n j = p (sl_off s + j).
Proof.
  intros Hs Hn. unfold fbit, slot_named. destruct (find _ layout) as [s'|] eqn:E.
  - apply find_some in E as [E1 E2]. apply String.eqb_eq in E2. assert (s' = s) by (apply slot_name_inj; auto; congruence). now subst.
  - exfalso. apply (find_none _ _ E s) in Hs. rewrite Hn, String.eqb_refl in Hs. discriminate Hs.
Qed.
(** a match accepts a packet iff its bits agree field by field *)
Lemma accepts_fields r m p : match_ok r m -> (maccepts m p <-> forall n b, wide n b -> forall j, 0 <= j < b -> forall x, ibit (mget m n) j = Some x -> fbit p n j = x).
Proof.
  intros Hm. rewrite (accepts_cbit m p (proj1 Hm)). split.
  - intros H n b (Hb & s & Hs & Hn & Hsb) j Hj x Hx. rewrite (fbit_slot p n s j Hs Hn). apply H. unfold cbit. rewrite (slot_at_some _ s) by (auto; lia).
    rewrite Hn. now replace (sl_off s + j - sl_off s) with j by lia.
  - intros H i x Hc. unfold cbit in Hc. destruct (slot_at i) as [s|] eqn:Es; [|discriminate]. apply slot_at_in in Es as [Hs Hi].
    assert (W : wide (sl_name s) (sl_bits s)) by (split; [destruct (slot_range s Hs); lia|exists s; auto]).
    assert (Q := H _ _ W (i - sl_off s) ltac:(lia) x Hc). rewrite (fbit_slot p _ s _ Hs eq_refl) in Q. now replace (sl_off s + (i - sl_off s)) with i in Q by lia.
Qed.
Definition known (m : Match) : Prop := forall k, In k (mkeys m) -> exists s, In s layout /\ sl_name s = k.
Definition all_tag_fields : list string := Eval vm_compute in flat_map tun_fields tunnels.
Lemma tag_field_in f : tag_field f <-> In f all_tag_fields.
Proof. change all_tag_fields with (flat_map tun_fields tunnels). rewrite in_flat_map. reflexivity. Qed.
Lemma tidy_check : forallb (fun f => forallb (fun s => implb (String.prefix f (sl_name s)) (String.eqb (sl_name s) f || String.eqb (sl_name s) (l1 f) || String.eqb (sl_name s) (l2 f))) layout) all_tag_fields = true.
Proof. vm_compute. reflexivity. Qed.
Lemma tidy_known m f : known m -> tag_field f -> tidy m f.
Proof.
  intros Hk Hf k Hi Hp. apply tag_field_in in Hf. assert (T := tidy_check). rewrite forallb_forall in T. specialize (T f Hf). rewrite forallb_forall in T.
  destruct (Hk k Hi) as (s & Hs & <-). specialize (T s Hs). rewrite Hp in T. cbn [implb] in T. rewrite !orb_true_iff, !String.eqb_eq in T. tauto.
Qed.
Lemma levels_check : forallb (fun f => match slot_named f, slot_named (l1 f), slot_named (l2 f) with
  | Some a, Some b, Some c => (sl_bits a =? sl_bits b)%Z && (sl_bits b =? sl_bits c)%Z && (0 <? sl_bits a)%Z | _, _, _ => false end) all_tag_fields = true.
Proof. vm_compute. reflexivity. Qed.
Lemma tag_levels f : tag_field f -> exists b, levels f b.
Proof.
  intros Hf. apply tag_field_in in Hf. assert (T := levels_check). rewrite forallb_forall in T. specialize (T f Hf).
  destruct (slot_named f) as [a|] eqn:Ea; [|discriminate]. destruct (slot_named (l1 f)) as [b|] eqn:Eb; [|discriminate]. destruct (slot_named (l2 f)) as [c|] eqn:Ec; [|discriminate].
  unfold slot_named in *. apply find_some in Ea as [A1 A2]. apply find_some in Eb as [B1 B2]. apply find_some in Ec as [C1 C2]. apply String.eqb_eq in A2, B2, C2.
  exists (sl_bits a). split; [|split]; (split; [lia|]); [exists a|exists b|exists c]; (split; [auto|split; [auto|lia]]).
Qed.
Lemma shifted_tidy b f m m' x0 x1 x2 : tidy m f -> shifted b f m m' x0 x1 x2 -> tidy m' f.
Proof.
  intros Ht (_ & _ & _ & H) k Hi Hp. destruct (string_dec k f) as [|N0]; [auto|]. destruct (string_dec k (l1 f)) as [|N1]; [auto|]. destruct (string_dec k (l2 f)) as [|N2]; [auto|].
  apply mhas_keys in Hi. unfold mhas in Hi. rewrite (H k N0 N1 N2) in Hi. apply Ht; [|auto]. apply mhas_keys. exact Hi.
Qed.
Lemma moved_has b m m' n n' : moved b (mget m n) (mget m' n') -> mhas m' n' = mhas m n.
Proof. intros (H & _). unfold mhas. destruct (mget m n), (mget m' n'); try reflexivity; exfalso; destruct H as [H1 H2]; [specialize (H2 eq_refl)|specialize (H1 eq_refl)]; discriminate. Qed.
Lemma moved_no b m' n : moved b None (mget m' n) -> mget m' n = None.
Proof. intros (H & _). now apply H. Qed.

(** C41: demote, then promote *)
Lemma demote_promote r m f n r1 m1 : reg_ok r -> match_ok r m -> known m -> tag_field f -> 0 <= n -> demote_match m f n r = (r1, Ok m1) ->
  ~ (n = 1 /\ mhas m f = true /\ mhas m (l1 f) = true) ->
  exists r2 m2, promote_match m1 f n r1 = (r2, Ok m2) /\ (forall x, mhas m2 x = mhas m x) /\ forall p, maccepts m2 p <-> maccepts m p.
Proof.
  intros Hr Hm Hk Hf Hn H Hne. assert (Ht := tidy_known m f Hk Hf). destruct (tag_levels f Hf) as (b & Lv).
  destruct (Z.eq_dec n 0) as [->|N0]; [unfold demote_match in H; cbn [Z.eqb] in H; injection H as <- <-; exists r, m; split; [reflexivity|]; split; [auto|tauto]|].
  assert (Herr := demote_err r m f n Hm Ht ltac:(lia)).
  assert (Hok : mhas m (l2 f) = false /\ (mhas m (l1 f) = true -> n = 1) /\ (mhas m f = true -> n <= 2)).
  { destruct (mhas m (l2 f)) eqn:E2; [rewrite Herr in H; [discriminate H|auto]|]. split; [reflexivity|]. split; intros E.
    - destruct (Z.eq_dec n 1); [auto|]. rewrite Herr in H; [discriminate H|]. right. left. split; [auto|lia].
    - destruct (Z_le_gt_dec n 2); [auto|]. rewrite Herr in H; [discriminate H|]. right. right. split; [auto|lia]. }
  clear Herr. destruct Hok as (E2 & E1 & E0). names f.
  assert (Fin : forall r2 m2, match_ok r2 m2 -> moved b (mget m f) (mget m2 f) -> moved b (mget m (l1 f)) (mget m2 (l1 f)) -> moved b (mget m (l2 f)) (mget m2 (l2 f)) ->
    (forall x, x <> f -> x <> l1 f -> x <> l2 f -> mget m2 x = mget m x) -> (forall x, mhas m2 x = mhas m x) /\ forall p, maccepts m2 p <-> maccepts m p).
  { intros r2 m2 M2 A0 A1 A2 A3. destruct Lv as (W0 & W1 & W2). split.
    - intros x. destruct (string_dec x f) as [->|Q0]; [eapply moved_has; eauto|]. destruct (string_dec x (l1 f)) as [->|Q1]; [eapply moved_has; eauto|].
      destruct (string_dec x (l2 f)) as [->|Q2]; [eapply moved_has; eauto|]. unfold mhas. now rewrite A3.
    - intros p. rewrite (accepts_fields _ _ p M2), (accepts_fields _ _ p Hm).
      assert (Bits : forall x b', wide x b' -> forall j, 0 <= j < b' -> ibit (mget m2 x) j = ibit (mget m x) j).
      { intros x b' Wx j Hj. assert (Wb : forall y, wide y b -> x = y -> b' = b).
        { intros y (_ & s & Hs & Hsn & Hsb) ->. symmetry. rewrite <- Hsb. destruct Wx as (Wp & s' & Hs' & Hn' & Hb'). rewrite <- Hb'. f_equal. apply slot_name_inj; auto. congruence. }
        destruct (string_dec x f) as [Q0|Q0]; [rewrite (Wb f W0 Q0) in Hj; subst x; symmetry; now apply A0|].
        destruct (string_dec x (l1 f)) as [Q1|Q1]; [rewrite (Wb _ W1 Q1) in Hj; subst x; symmetry; now apply A1|].
        destruct (string_dec x (l2 f)) as [Q2|Q2]; [rewrite (Wb _ W2 Q2) in Hj; subst x; symmetry; now apply A2|]. now rewrite A3. }
      split; intros Q x b' Wx j Hj y Hy; apply (Q x b' Wx j Hj); [rewrite (Bits x b' Wx j Hj)|rewrite <- (Bits x b' Wx j Hj)]; exact Hy. }
  destruct (Z_le_gt_dec n 2) as [Hn2|Hn2].
  - assert (n = 1 \/ n = 2) as [-> | ->] by lia.
    + destruct (runs_eqb _ _ _ (demote1_runs r m f b Hr Hm Ht Lv E2)) as (r1' & m1' & Ed & R1 & L1 & M1 & S1). rewrite Ed in H. injection H as -> ->.
      assert (T1 := shifted_tidy _ _ _ _ _ _ _ Ht S1). destruct S1 as (B0 & B1 & B2 & B3). apply moved_no in B0.
      assert (Asc : ascending m1 f).
      { intros (a & b0 & c & E). apply Hne. split; [reflexivity|].
        rewrite <- (moved_has _ _ _ _ _ B1), <- (moved_has _ _ _ _ _ B2), !mhas_keys, E. split; apply in_or_app; right; [right; apply in_or_app; right; now left|now left]. }
      destruct (runs_eqb _ _ _ (promote1_runs r1 m1 f b R1 M1 T1 Lv ltac:(unfold mhas; now rewrite B0) Asc)) as (r2 & m2 & Ep & R2 & L2 & M2 & (C0 & C1 & C2 & C3)).
      exists r2, m2. split; [auto|]. apply (Fin r2); auto; [eapply moved_trans; eauto|eapply moved_trans; eauto| |intros x Q0 Q1 Q2; rewrite C3, B3; auto].
      apply mhas_none in E2. rewrite E2. exact C2.
    + assert (E1' : mhas m (l1 f) = false) by (destruct (mhas m (l1 f)); [specialize (E1 eq_refl); lia|reflexivity]).
      destruct (runs_eqb _ _ _ (demote2_runs r m f b Hr Hm Ht Lv E2 E1')) as (r1' & m1' & Ed & R1 & L1 & M1 & S1). rewrite Ed in H. injection H as -> ->.
      assert (T1 := shifted_tidy _ _ _ _ _ _ _ Ht S1). destruct S1 as (B0 & B1 & B2 & B3). apply moved_no in B0, B1.
      destruct (runs_eqb _ _ _ (promote2_runs r1 m1 f b R1 M1 T1 Lv ltac:(unfold mhas; now rewrite B0) ltac:(unfold mhas; now rewrite B1))) as (r2 & m2 & Ep & R2 & L2 & M2 & (C0 & C1 & C2 & C3)).
      exists r2, m2. split; [auto|]. apply mhas_none in E2, E1'. apply (Fin r2); auto; [eapply moved_trans; eauto|rewrite E1'; auto|rewrite E2; auto|intros x Q0 Q1 Q2; rewrite C3, B3; auto].
  - assert (E1' : mhas m (l1 f) = false) by (destruct (mhas m (l1 f)); [specialize (E1 eq_refl); lia|reflexivity]).
    assert (E0' : mhas m f = false) by (destruct (mhas m f); [specialize (E0 eq_refl); lia|reflexivity]).
    unfold demote_match in H. destruct (Z.eqb_spec n 0); [lia|]. rewrite (variations_none m f Ht E0' E1' E2) in H. cbn in H. injection H as <- <-.
    exists r, m. unfold promote_match. destruct (Z.eqb_spec n 0); [lia|]. rewrite (variations_none m f Ht E0' E1' E2). split; [reflexivity|]. split; [auto|tauto].
Qed.

(** ** Bits of a pushed or popped header *)
Lemma fbit_at n b p j : wide n b -> 0 <= j < b -> exists s, In s layout /\ sl_name s = n /\ slot_at (sl_off s + j) = Some s /\ fbit p n j = p (sl_off s + j).
Proof. intros (_ & s & Hs & Hn & Hb) Hj. exists s. split; [auto|]. split; [auto|]. split; [apply slot_at_some; [auto|lia]|now apply fbit_slot]. Qed.
Lemma fbit_push f p n b j : wide n b -> 0 <= j < b -> fbit (push_field f p) n j =
  if String.eqb n f then fbit p f j || (String.eqb f "VLAN_VID" && (j =? 12)) else if String.eqb n (l1 f) then fbit p f j else if String.eqb n (l2 f) then fbit p (l1 f) j else fbit p n j.
Proof.
  intros W Hj. destruct (fbit_at n b (push_field f p) j W Hj) as (s & Hs & Hn & Ha & E). rewrite E. unfold push_field. rewrite Ha, Hn. cbv zeta.
  replace (sl_off s + j - sl_off s) with j by lia. destruct (String.eqb n f); [reflexivity|]. destruct (String.eqb n (l1 f)); [reflexivity|]. destruct (String.eqb n (l2 f)); [reflexivity|].
  symmetry. now apply fbit_slot.
Qed.
Lemma fbit_pop below f p n b j : wide n b -> 0 <= j < b -> n <> l2 f -> fbit (pop_field below f p) n j =
  if String.eqb n f then fbit p (l1 f) j else if String.eqb n (l1 f) then fbit p (l2 f) j else fbit p n j.
Proof.
  intros W Hj N. destruct (fbit_at n b (pop_field below f p) j W Hj) as (s & Hs & Hn & Ha & E). rewrite E. unfold pop_field. rewrite Ha, Hn. cbv zeta.
  replace (sl_off s + j - sl_off s) with j by lia. destruct (String.eqb n f); [reflexivity|]. destruct (String.eqb n (l1 f)); [reflexivity|].
  rewrite (proj2 (String.eqb_neq _ _) N). symmetry. now apply fbit_slot.
Qed.
Lemma wide_fun n b b' : wide n b -> wide n b' -> b = b'.
Proof. intros (_ & s & Hs & Hn & Hb) W. rewrite <- Hb. symmetry. rewrite <- (wide_slot n b' s); auto. Qed.

(** ** One field pushed, one popped *)
Record eg_ok (r : registry) (e : egress) : Prop := mkEO {
  eo_sim : match_ok r (eg_sim e); eo_rew : match_ok r (eg_rew e); eo_known : known (eg_sim e);
  eo_sub : forall n, mhas (eg_rew e) n = true -> mhas (eg_sim e) n = true }.
Lemma eo_knownr r e : eg_ok r e -> known (eg_rew e).
Proof. intros H k Hk. apply (eo_known r e H). apply mhas_keys. apply (eo_sub r e H). now apply mhas_keys. Qed.
Lemma eo_none r e n : eg_ok r e -> mhas (eg_sim e) n = false -> mhas (eg_rew e) n = false.
Proof. intros H E. destruct (mhas (eg_rew e) n) eqn:E'; [|reflexivity]. apply (eo_sub r e H) in E'. congruence. Qed.
(** what a push has to know of the outermost value: the bits the match leaves open are 0 *)
Definition blank (m : Match) (f : string) (p : packet) : Prop :=
  forall b, wide f b -> zeroed b (mget m f) /\ forall j, 0 <= j < b -> ibit (mget m f) j = None -> fbit p f j = false.
Definition same_field (m m' : Match) (f : string) : Prop := mget m' f = mget m f /\ mget m' (l1 f) = mget m (l1 f) /\ mget m' (l2 f) = mget m (l2 f).
Lemma known_set m m' f x : known m -> (exists s, In s layout /\ sl_name s = f) -> (forall n, mget m' n = if String.eqb f n then x else mget m n) -> known m'.
Proof.
  intros Hk Hf G k Hi. apply mhas_keys in Hi. unfold mhas in Hi. rewrite G in Hi. destruct (String.eqb_spec f k) as [Q|N]; [rewrite <- Q; exact Hf|].
  apply Hk. apply mhas_keys. exact Hi.
Qed.
Lemma known_shift b f m m' x0 x1 x2 : known m -> levels f b -> shifted b f m m' x0 x1 x2 -> known m'.
Proof.
  intros Hk (W0 & W1 & W2) (_ & _ & _ & H) k Hi. assert (Q : forall n, wide n b -> exists s, In s layout /\ sl_name s = n) by (intros n (_ & s & A & B & _); eauto).
  destruct (string_dec k f) as [->|N0]; [auto|]. destruct (string_dec k (l1 f)) as [->|N1]; [auto|]. destruct (string_dec k (l2 f)) as [->|N2]; [auto|].
  apply Hk. apply mhas_keys. apply mhas_keys in Hi. unfold mhas in *. now rewrite H in Hi.
Qed.
Lemma ibit_lor v mk id j c : mask_bit mk j = true -> ibit (Some (Z.lor c v, None, id)) j = option_map (orb (Z.testbit c j)) (ibit (Some (v, mk, id)) j).
Proof. intros E. unfold ibit. cbn [mask_bit]. rewrite E. cbn [option_map]. now rewrite Z.lor_spec. Qed.
Lemma present_bit j : 0 <= j -> Z.testbit 0x1000 j = (j =? 12).
Proof. intros H. change 0x1000 with (2 ^ 12). rewrite Z.pow2_bits_eqb by lia. apply Z.eqb_sym. Qed.

Definition exact_in (m : Match) (f : string) : Prop := exists v id, mget m f = Some (v, None, id).
Definition pushed (m m' : Match) (f : string) : Prop := exact_in m' f /\ mhas m' (l1 f) = mhas m f /\ mhas m' (l2 f) = mhas m (l1 f).
Definition popped (m m' : Match) (f : string) : Prop := mhas m' (l1 f) = mhas m (l2 f) /\ mhas m' (l2 f) = false.
Lemma push_runs r e f : reg_ok r -> eg_ok r e -> tag_field f -> mhas (eg_sim e) (l2 f) = false ->
  runs (sim_push_field e f) r (fun r' e' => eg_ok r' e' /\ eg_ops e' = eg_ops e /\
    (forall n, n <> f -> n <> l1 f -> n <> l2 f -> mget (eg_sim e') n = mget (eg_sim e) n) /\ pushed (eg_sim e) (eg_sim e') f /\
    forall p, blank (eg_sim e) f p -> maccepts (eg_sim e) p -> maccepts (eg_sim e') (push_field f p)).
Proof.
  intros Hr He Hf H2. destruct (tag_levels f Hf) as (b & Lv). names f. assert (Ks := eo_known r e He). assert (Kr := eo_knownr r e He).
  unfold sim_push_field. eapply runs_bind; [apply demote1_runs; eauto using tidy_known; apply He|]. intros r1 s1 R1 L1 (M1 & S1).
  eapply runs_bind; [apply (demote1_runs r1 (eg_rew e) f b); auto; [eapply match_ok_mono; [exact L1|apply He]|now apply tidy_known|now apply (eo_none r)]|].
  intros r2 w1 R2 L2 (W1 & T1). cbv zeta. set (mi := if String.eqb f "VLAN_VID" then 0x1000 else 0).
  assert (K1 := known_shift _ _ _ _ _ _ _ Ks Lv S1).
  assert (Fin : forall c, (forall p, blank (eg_sim e) f p -> maccepts (eg_sim e) p -> forall j, 0 <= j < b -> Z.testbit c j = fbit p f j || (String.eqb f "VLAN_VID" && (j =? 12))) ->
    runs (sdo s <- s_append s1 f c None; sdo w <- s_append w1 f c None; sret (mkEg s w (eg_ops e))) r2 (fun r' e' => eg_ok r' e' /\ eg_ops e' = eg_ops e /\
      (forall n, n <> f -> n <> l1 f -> n <> l2 f -> mget (eg_sim e') n = mget (eg_sim e) n) /\ pushed (eg_sim e) (eg_sim e') f /\
      forall p, blank (eg_sim e) f p -> maccepts (eg_sim e) p -> maccepts (eg_sim e') (push_field f p))).
  { intros c Hc. eapply runs_bind; [apply append_runs; [auto|eapply match_ok_mono; [exact L2|auto]]|]. intros r3 s2 R3 L3 (M2 & x & X & G).
    eapply runs_bind; [apply append_runs; [auto|eapply match_ok_mono; [exact L3|auto]]|]. intros r4 w2 R4 L4 (W2 & y & Y & G').
    apply runs_ret; [auto|]. cbn [eg_sim eg_rew eg_ops]. destruct Lv as (V0 & V1 & V2). destruct S1 as (B0 & B1 & B2 & B3). destruct T1 as (D0 & D1 & D2 & D3).
    split; [constructor; cbn [eg_sim eg_rew]|].
    - eapply match_ok_mono; eauto.
    - auto.
    - eapply known_set; [exact K1| |exact G]. destruct V0 as (_ & s & A & B & _); eauto.
    - intros n. unfold mhas. rewrite G, G'. destruct (String.eqb_spec f n) as [<-|N]; [auto|]. intros Hh. change (mhas w1 n = true) in Hh. change (mhas s1 n = true).
      destruct (string_dec n (l1 f)) as [->|N1]; [rewrite (moved_has _ _ _ _ _ B1); rewrite (moved_has _ _ _ _ _ D1) in Hh; now apply (eo_sub r e He)|].
      destruct (string_dec n (l2 f)) as [->|N2]; [rewrite (moved_has _ _ _ _ _ B2); rewrite (moved_has _ _ _ _ _ D2) in Hh; now apply (eo_sub r e He)|].
      unfold mhas in *. rewrite B3 by auto. rewrite D3 in Hh by auto. now apply (eo_sub r e He).
    - split; [reflexivity|]. split; [intros n Q0 Q1 Q2; rewrite G, (proj2 (String.eqb_neq f n)) by auto; now apply B3|].
      split.
      { split; [destruct x as [[v' mk'] id']; destruct X as (X & _); destruct (X eq_refl) as (-> & ->); exists c, id'; now rewrite G, String.eqb_refl|].
        unfold mhas. rewrite !G. eqbs. fold (mhas s1 (l1 f)) (mhas s1 (l2 f)) (mhas (eg_sim e) f) (mhas (eg_sim e) (l1 f)).
        split; [exact (moved_has _ _ _ _ _ B1)|exact (moved_has _ _ _ _ _ B2)]. }
      intros p Bl Ha. assert (Fa := proj1 (accepts_fields r (eg_sim e) p (eo_sim r e He)) Ha). apply (accepts_fields r3 s2 _ M2). intros n bn Wn j Hj z Hz.
      rewrite (fbit_push f p n bn j Wn Hj). rewrite G in Hz. rewrite (String.eqb_sym n f). destruct (String.eqb_spec f n) as [<-|N0].
      { rewrite (wide_fun _ _ _ Wn V0) in Hj. destruct x as [[v' mk'] id']. destruct X as (X & _). destruct (X eq_refl) as (-> & ->). injection Hz as <-. symmetry. now apply Hc. }
      destruct (String.eqb_spec n (l1 f)) as [->|N1].
      { rewrite (wide_fun _ _ _ Wn V1) in Hj. apply (Fa f b V0 j Hj). rewrite <- Hz. now apply B1. }
      destruct (String.eqb_spec n (l2 f)) as [->|N2].
      { rewrite (wide_fun _ _ _ Wn V2) in Hj. apply (Fa (l1 f) b V1 j Hj). rewrite <- Hz. now apply B2. }
      rewrite B3 in Hz by auto. now apply (Fa n bn Wn j Hj). }
  destruct Lv as (V0 & V1 & V2).
  assert (Bmi : forall j, 0 <= j -> Z.testbit mi j = (String.eqb f "VLAN_VID" && (j =? 12))).
  { intros j Hj. unfold mi. destruct (String.eqb f "VLAN_VID"); cbn [andb]; [now apply present_bit|apply Z.testbit_0_l]. }
  destruct S1 as (_ & B1 & _). destruct (mget s1 (f ++ "1")) as [[[v mk] id]|] eqn:E1.
  - apply Fin. intros p Bl Ha j Hj. assert (Fa := proj1 (accepts_fields r (eg_sim e) p (eo_sim r e He)) Ha). destruct (Bl b V0) as (Z0 & Bp).
    rewrite Z.lor_spec, Bmi, orb_comm by lia. f_equal. destruct B1 as (_ & B1 & B1z & _). specialize (B1z Z0). specialize (B1 j Hj). unfold ibit in B1 at 2.
    destruct (mask_bit mk j) eqn:Em; [symmetry; now apply (Fa f b V0 j Hj)|]. rewrite (B1z v mk id eq_refl j Hj Em). symmetry. now apply Bp.
  - apply Fin. intros p Bl Ha j Hj. rewrite Bmi by lia. destruct (Bl b V0) as (_ & Bp). rewrite (Bp j Hj); [reflexivity|]. destruct B1 as (_ & B1 & _). now rewrite B1.
Qed.

Lemma drop_runs r m f : reg_ok r -> match_ok r m ->
  runs (if mhas m f then s_del m f else sret m) r (fun r' m' => match_ok r' m' /\ forall n, mget m' n = if String.eqb f n then None else mget m n).
Proof.
  intros Hr Hm. destruct (mhas m f) eqn:E; [now apply del_runs|]. apply runs_ret; [auto|]. split; [auto|]. intros n. destruct (String.eqb_spec f n) as [<-|]; [now apply mhas_none|reflexivity].
Qed.
Definition one_inner (m : Match) (f : string) : Prop := mhas m (l1 f) = false \/ mhas m (l2 f) = false.
Lemma one_ascending m f : one_inner m f -> ascending m f.
Proof.
  intros H (a & b & c & E). assert (mhas m (l1 f) = true /\ mhas m (l2 f) = true) as [A B].
  { rewrite !mhas_keys, E. split; apply in_or_app; right; [right; apply in_or_app; right; now left|now left]. }
  destruct H; congruence.
Qed.
Lemma pop_runs r e f : reg_ok r -> eg_ok r e -> tag_field f -> one_inner (eg_sim e) f ->
  runs (sim_pop_field e f) r (fun r' e' => eg_ok r' e' /\ eg_ops e' = eg_ops e /\
    (forall n, n <> f -> n <> l1 f -> n <> l2 f -> mget (eg_sim e') n = mget (eg_sim e) n) /\ popped (eg_sim e) (eg_sim e') f /\
    forall below p, maccepts (eg_sim e) p -> maccepts (eg_sim e') (pop_field below f p)).
Proof.
  intros Hr He Hf H2. destruct (tag_levels f Hf) as (b & Lv). names f. assert (Ks := eo_known r e He). assert (Kr := eo_knownr r e He).
  unfold sim_pop_field. eapply runs_bind; [apply drop_runs; [auto|apply He]|]. intros r1 s1 R1 L1 (M1 & G1).
  eapply runs_bind; [apply (drop_runs r1 (eg_rew e) f); [auto|eapply match_ok_mono; [exact L1|apply He]]|]. intros r2 w1 R2 L2 (W1 & G1').
  assert (Kn : forall m m', known m -> (forall n, mget m' n = if String.eqb f n then None else mget m n) -> known m').
  { intros m m' Hm G. eapply known_set; [exact Hm| |exact G]. destruct Lv as ((_ & s & A & B & _) & _); eauto. }
  assert (Nf : forall m m', (forall n, mget m' n = if String.eqb f n then None else mget m n) -> mhas m' f = false) by (intros m m' G; unfold mhas; now rewrite G, String.eqb_refl).
  assert (On : forall m m', (forall n, mget m' n = if String.eqb f n then None else mget m n) -> one_inner m f -> one_inner m' f).
  { intros m m' G [H|H]; [left|right]; unfold mhas; rewrite G; eqbs; exact H. }
  assert (H2' : one_inner (eg_rew e) f) by (destruct H2; [left|right]; now apply (eo_none r)).
  eapply runs_bind; [apply (promote1_runs r2 s1 f b); auto; [eapply match_ok_mono; [exact L2|auto]|apply tidy_known; eauto|eauto|apply one_ascending; eauto]|]. intros r3 s2 R3 L3 (M2 & S2).
  eapply runs_bind; [apply (promote1_runs r3 w1 f b); auto; [eapply match_ok_mono; [exact L3|auto]|apply tidy_known; eauto|eauto|apply one_ascending; eauto]|]. intros r4 w2 R4 L4 (W2 & T2).
  apply runs_ret; [auto|]. cbn [eg_sim eg_rew eg_ops]. assert (K2 := known_shift _ _ _ _ _ _ _ (Kn _ _ Ks G1) Lv S2). destruct Lv as (V0 & V1 & V2). destruct S2 as (B0 & B1 & B2 & B3). destruct T2 as (D0 & D1 & D2 & D3).
  assert (g1 : mget s1 (l1 f) = mget (eg_sim e) (l1 f)) by (rewrite G1; eqbs; reflexivity).
  assert (g2 : mget s1 (l2 f) = mget (eg_sim e) (l2 f)) by (rewrite G1; eqbs; reflexivity).
  assert (g1' : mget w1 (l1 f) = mget (eg_rew e) (l1 f)) by (rewrite G1'; eqbs; reflexivity).
  assert (g2' : mget w1 (l2 f) = mget (eg_rew e) (l2 f)) by (rewrite G1'; eqbs; reflexivity).
  rewrite g1 in B0. rewrite g2 in B1. rewrite g1' in D0. rewrite g2' in D1. apply moved_no in B2, D2.
  split; [constructor; cbn [eg_sim eg_rew]|].
  - eapply match_ok_mono; eauto.
  - auto.
  - auto.
  - intros n Hh. destruct (string_dec n f) as [->|N0]; [rewrite (moved_has _ _ _ _ _ B0); rewrite (moved_has _ _ _ _ _ D0) in Hh; now apply (eo_sub r e He)|].
    destruct (string_dec n (l1 f)) as [->|N1]; [rewrite (moved_has _ _ _ _ _ B1); rewrite (moved_has _ _ _ _ _ D1) in Hh; now apply (eo_sub r e He)|].
    destruct (string_dec n (l2 f)) as [->|N2]; [unfold mhas in Hh; rewrite D2 in Hh; discriminate|].
    unfold mhas in *. rewrite B3, G1 by auto. rewrite D3, G1' in Hh by auto. destruct (String.eqb f n); [discriminate|now apply (eo_sub r e He)].
  - split; [reflexivity|]. split; [intros n Q0 Q1 Q2; rewrite B3, G1, (proj2 (String.eqb_neq f n)) by auto; reflexivity|].
    split; [split; [exact (moved_has _ _ _ _ _ B1)|unfold mhas; now rewrite B2]|].
    intros below p Ha. assert (Fa := proj1 (accepts_fields r (eg_sim e) p (eo_sim r e He)) Ha). apply (accepts_fields r3 s2 _ M2). intros n bn Wn j Hj z Hz.
    destruct (string_dec n (l2 f)) as [->|N2]; [rewrite B2 in Hz; discriminate|]. rewrite (fbit_pop below f p n bn j Wn Hj N2).
    destruct (String.eqb_spec n f) as [->|N0]; [rewrite (wide_fun _ _ _ Wn V0) in Hj; apply (Fa (l1 f) b V1 j Hj); rewrite <- Hz; now apply B0|].
    destruct (String.eqb_spec n (l1 f)) as [->|N1]; [rewrite (wide_fun _ _ _ Wn V1) in Hj; apply (Fa (l2 f) b V2 j Hj); rewrite <- Hz; now apply B1|].
    rewrite B3, G1, (proj2 (String.eqb_neq f n)) in Hz by auto. now apply (Fa n bn Wn j Hj).
Qed.

(** ** Whole tags *)
Definition apart (f g : string) : Prop := forall n, In n [g; l1 g; l2 g] -> n <> f /\ n <> l1 f /\ n <> l2 f.
Definition apartb (f g : string) : bool :=
  forallb (fun n => negb (String.eqb n f) && negb (String.eqb n (l1 f)) && negb (String.eqb n (l2 f))) [g; l1 g; l2 g].
Lemma apartb_ok f g : apartb f g = true -> apart f g.
Proof. intros H n Hn. unfold apartb in H. rewrite forallb_forall in H. specialize (H n Hn). rewrite !andb_true_iff, !negb_true_iff, !String.eqb_neq in H. tauto. Qed.
Fixpoint apart_list (l : list string) : Prop := match l with [] => True | f :: t => (forall g, In g t -> apart f g) /\ apart_list t end.
Fixpoint apart_listb (l : list string) : bool := match l with [] => true | f :: t => forallb (apartb f) t && apart_listb t end.
Lemma apart_listb_ok l : apart_listb l = true -> apart_list l.
Proof.
  induction l as [|f t IH]; cbn [apart_list apart_listb]; [auto|]. rewrite andb_true_iff, forallb_forall. intros [H1 H2]. split; [|auto]. intros g Hg. apply apartb_ok. auto.
Qed.
Lemma apart_check : forallb (fun t => apart_listb (tun_fields t)) tunnels = true.
Proof. vm_compute. reflexivity. Qed.
Lemma tunnel_apart t : In t tunnels -> apart_list (tun_fields t).
Proof. intros H. apply apart_listb_ok. assert (T := apart_check). rewrite forallb_forall in T. auto. Qed.

Lemma blank_step m m' f g p : tag_field g -> apart f g -> (forall n, n <> f -> n <> l1 f -> n <> l2 f -> mget m' n = mget m n) -> blank m g p -> blank m' g (push_field f p).
Proof.
  intros Hg Ha Hm Hb b W. destruct (Ha g (or_introl eq_refl)) as (N0 & N1 & N2). destruct (Hb b W) as (Z0 & Hp). rewrite Hm by auto. split; [auto|].
  intros j Hj Hn. rewrite (fbit_push f p g b j W Hj). eqbs. now apply Hp.
Qed.
Lemma mhas_step m m' f n : (forall n, n <> f -> n <> l1 f -> n <> l2 f -> mget m' n = mget m n) -> n <> f /\ n <> l1 f /\ n <> l2 f -> mhas m' n = mhas m n.
Proof. intros H (A & B & C). unfold mhas. now rewrite H. Qed.
Lemma push_fields_runs fs : forall r e, reg_ok r -> eg_ok r e -> (forall f, In f fs -> tag_field f) -> apart_list fs -> (forall f, In f fs -> mhas (eg_sim e) (l2 f) = false) ->
  runs (sfold sim_push_field fs e) r (fun r' e' => eg_ok r' e' /\ eg_ops e' = eg_ops e /\
    (forall n, (forall f, In f fs -> n <> f /\ n <> l1 f /\ n <> l2 f) -> mget (eg_sim e') n = mget (eg_sim e) n) /\ (forall f, In f fs -> pushed (eg_sim e) (eg_sim e') f) /\
    forall p, (forall f, In f fs -> blank (eg_sim e) f p) -> maccepts (eg_sim e) p -> maccepts (eg_sim e') (fold_left (fun q f => push_field f q) fs p)).
Proof.
  induction fs as [|f t IH]; intros r e Hr He Hf Ha Hd; cbn [sfold fold_left].
  { apply runs_ret; [auto|]. split; [auto|]. split; [auto|]. split; [auto|]. split; [intros f []|]. intros p _ H. exact H. }
  destruct Ha as [Ha1 Ha2]. eapply runs_bind; [apply (push_runs r e f); auto; [apply Hf; now left|apply Hd; now left]|]. intros r1 e1 R1 L1 (E1 & O1 & S1 & U1 & P1).
  eapply runs_weaken; [apply (IH r1 e1); auto|].
  - intros g Hg. apply Hf. now right.
  - intros g Hg. rewrite (mhas_step _ _ _ _ S1); [apply Hd; now right|]. apply (Ha1 g Hg). right. right. now left.
  - intros r2 e2 _ _ (E2 & O2 & S2 & U2 & P2). split; [auto|]. split; [congruence|]. split.
    { intros n Hn. rewrite S2 by (intros g Hg; apply Hn; now right). apply S1; apply (Hn f (or_introl eq_refl)). }
    assert (Q : forall n, In n [f; l1 f; l2 f] -> mget (eg_sim e2) n = mget (eg_sim e1) n).
    { intros n Hn. apply S2. intros g Hg. assert (Hx := fun k Hk => Ha1 g Hg k Hk). repeat split; intros E; subst n.
      - destruct (Hx g (or_introl eq_refl)) as (A & B & C). destruct Hn as [Hn|[Hn|[Hn|[]]]]; congruence.
      - destruct (Hx (l1 g) (or_intror (or_introl eq_refl))) as (A & B & C). destruct Hn as [Hn|[Hn|[Hn|[]]]]; congruence.
      - destruct (Hx (l2 g) (or_intror (or_intror (or_introl eq_refl)))) as (A & B & C). destruct Hn as [Hn|[Hn|[Hn|[]]]]; congruence. }
    split.
    { intros g [<-|Hg].
      - destruct U1 as ((v & id & X) & Y & Z). split; [exists v, id; rewrite Q by (now left); exact X|]. unfold mhas in *. rewrite !Q by (cbn; auto). auto.
      - destruct (U2 g Hg) as (X & Y & Z). split; [exact X|]. rewrite Y, Z. split; apply (mhas_step _ _ _ _ S1); apply (Ha1 g Hg); cbn; auto. }
    intros p Hb Hp. apply P2.
    + intros g Hg. apply (blank_step (eg_sim e) (eg_sim e1)); auto; [apply Hf; now right|apply Hb; now right].
    + apply P1; [apply Hb; now left|auto].
Qed.
Lemma pop_fields_runs fs : forall r e, reg_ok r -> eg_ok r e -> (forall f, In f fs -> tag_field f) -> apart_list fs -> (forall f, In f fs -> one_inner (eg_sim e) f) ->
  runs (sfold sim_pop_field fs e) r (fun r' e' => eg_ok r' e' /\ eg_ops e' = eg_ops e /\
    (forall n, (forall f, In f fs -> n <> f /\ n <> l1 f /\ n <> l2 f) -> mget (eg_sim e') n = mget (eg_sim e) n) /\ (forall f, In f fs -> popped (eg_sim e) (eg_sim e') f) /\
    forall below p, maccepts (eg_sim e) p -> maccepts (eg_sim e') (fold_left (fun q f => pop_field below f q) fs p)).
Proof.
  induction fs as [|f t IH]; intros r e Hr He Hf Ha Hd; cbn [sfold fold_left].
  { apply runs_ret; [auto|]. split; [auto|]. split; [auto|]. split; [auto|]. split; [intros f []|]. intros below p H. exact H. }
  destruct Ha as [Ha1 Ha2]. eapply runs_bind; [apply (pop_runs r e f); auto; [apply Hf; now left|apply Hd; now left]|]. intros r1 e1 R1 L1 (E1 & O1 & S1 & U1 & P1).
  eapply runs_weaken; [apply (IH r1 e1); auto|].
  - intros g Hg. apply Hf. now right.
  - intros g Hg. destruct (Hd g (or_intror Hg)) as [Q|Q]; [left|right]; (rewrite (mhas_step _ _ _ _ S1); [exact Q|]); apply (Ha1 g Hg); [right; now left|right; right; now left].
  - intros r2 e2 _ _ (E2 & O2 & S2 & U2 & P2). split; [auto|]. split; [congruence|]. split.
    { intros n Hn. rewrite S2 by (intros g Hg; apply Hn; now right). apply S1; apply (Hn f (or_introl eq_refl)). }
    assert (Q : forall n, In n [f; l1 f; l2 f] -> mget (eg_sim e2) n = mget (eg_sim e1) n).
    { intros n Hn. apply S2. intros g Hg. assert (Hx := fun k Hk => Ha1 g Hg k Hk). repeat split; intros E; subst n.
      - destruct (Hx g (or_introl eq_refl)) as (A & B & C). destruct Hn as [Hn|[Hn|[Hn|[]]]]; congruence.
      - destruct (Hx (l1 g) (or_intror (or_introl eq_refl))) as (A & B & C). destruct Hn as [Hn|[Hn|[Hn|[]]]]; congruence.
      - destruct (Hx (l2 g) (or_intror (or_intror (or_introl eq_refl)))) as (A & B & C). destruct Hn as [Hn|[Hn|[Hn|[]]]]; congruence. }
    split.
    { intros g [<-|Hg].
      - destruct U1 as (Y & Z). unfold popped, mhas in *. rewrite !Q by (cbn; auto). auto.
      - destruct (U2 g Hg) as (Y & Z). split; [|exact Z]. rewrite Y. apply (mhas_step _ _ _ _ S1); apply (Ha1 g Hg); cbn; auto. }
    intros below p Hp. apply P2. now apply P1.
Qed.
Lemma find_tun_find key n l : find_tun key n l = find (fun t => String.eqb (key t) n) l.
Proof. induction l as [|t r IH]; cbn [find_tun find]; [reflexivity|]. now rewrite IH. Qed.
(** what is needed of one action: a push meets no field already at the deepest level, and the open
    bits of the outermost tag are 0 in the packet; a pop meets at most one inner level; a set field
    sets a header field *)
Definition fits (e : egress) (a : action) : Prop :=
  match push_of a with
  | Some t => forall f, In f (tun_fields t) -> mhas (eg_sim e) (l2 f) = false
  | None => match pop_of a with
            | Some t => forall f, In f (tun_fields t) -> one_inner (eg_sim e) f
            | None => fst a = "SET_FIELD" -> exists f v s, snd a = VSet f v /\ In s layout /\ sl_name s = f
            end
  end.
Definition blanks (e : egress) (a : action) (p : packet) : Prop :=
  match push_of a with Some t => forall f, In f (tun_fields t) -> blank (eg_sim e) f p | None => True end.
Lemma set_not_tag a : fst a = "SET_FIELD" -> push_of a = None /\ pop_of a = None.
Proof. intros H. unfold push_of, pop_of. rewrite H. split; reflexivity. Qed.
Lemma tag_header_find below a p : tag_header below a p =
  match push_of a with Some t => fold_left (fun q f => push_field f q) (tun_fields t) p
  | None => match pop_of a with Some t => fold_left (fun q f => pop_field below f q) (tun_fields t) p | None => act_header a p end end.
Proof. unfold tag_header, push_of, pop_of. now rewrite !find_tun_find. Qed.
Lemma set_accepts r' m m' f v x p : stored f (vid_value f v) None x -> (forall n, mget m' n = if String.eqb f n then Some x else mget m n) -> match_ok r' m' -> forall r, match_ok r m ->
  maccepts m p -> maccepts m' (write_field f (vid_value f v) None p).
Proof.
  intros X G M' r M Ha. apply (accepts_cbit _ _ (proj1 M')). intros i c Hc. rewrite (cbit_upd m m' f _ None x i X G eq_refl) in Hc.
  rewrite write_field_rw. unfold apply_rw. destruct (rset f (vid_value f v) None i) as [c'|]; cbn [ov] in Hc; [now injection Hc|]. now apply (accepts_cbit _ _ (proj1 M)).
Qed.
Lemma tag_step r e a : reg_ok r -> eg_ok r e -> fits e a ->
  runs (sim_action e a) r (fun r' e' => eg_ok r' e' /\ forall below p, blanks e a p -> maccepts (eg_sim e) p -> maccepts (eg_sim e') (tag_header below a p)).
Proof.
  intros Hr He Hf. unfold sim_action. destruct (String.eqb_spec (fst a) "SET_FIELD") as [Es|Es].
  - destruct (set_not_tag a Es) as [Pu Po]. unfold fits in Hf. rewrite Pu, Po in Hf. destruct (Hf Es) as (f & v & s & Ev & Hs & Hn). rewrite Ev. unfold sim_set.
    eapply runs_bind; [apply append_runs; [auto|apply He]|]. intros r1 s1 R1 L1 (M1 & x & X & G).
    eapply runs_bind; [apply append_runs; [auto|eapply match_ok_mono; [exact L1|apply He]]|]. intros r2 w1 R2 L2 (W1 & y & Y & G').
    apply runs_ret; [auto|]. split; [constructor; cbn [eg_sim eg_rew]|].
    + eapply match_ok_mono; eauto.
    + auto.
    + eapply known_set; [apply (eo_known r e He)| |exact G]. eauto.
    + intros n. unfold mhas. rewrite G, G'. destruct (String.eqb f n); [auto|]. apply (eo_sub r e He).
    + intros below p _ Ha. cbn [eg_sim]. rewrite tag_header_find, Pu, Po. destruct a as [an av]. cbn [fst snd] in Es, Ev. subst an av. rewrite act_header_set.
      exact (set_accepts r1 (eg_sim e) s1 f v x p X G M1 r (eo_sim r e He) Ha).
  - unfold fits in Hf. destruct (push_of a) as [t|] eqn:Pu.
    + assert (Ht : In t tunnels) by (apply find_tun_name in Pu; tauto).
      eapply runs_bind; [apply push_fields_runs; auto; [intros f Hi; exists t; auto|now apply tunnel_apart]|]. intros r1 e1 R1 L1 (E1 & O1 & _ & _ & P1). apply runs_ret; [auto|].
      split; [destruct E1; constructor; auto|]. intros below p Hb Hp. unfold blanks in Hb. rewrite Pu in Hb. rewrite tag_header_find, Pu. now apply P1.
    + destruct (pop_of a) as [t|] eqn:Po.
      * assert (Ht : In t tunnels) by (apply find_tun_name in Po; tauto).
        eapply runs_bind; [apply pop_fields_runs; auto; [intros f Hi; exists t; auto|now apply tunnel_apart]|]. intros r1 e1 R1 L1 (E1 & O1 & _ & _ & P1). apply runs_ret; [auto|].
        split; [destruct E1; constructor; auto|]. intros below p _ Hp. rewrite tag_header_find, Pu, Po. now apply P1.
      * apply runs_ret; [auto|]. split; [auto|]. intros below p _ Hp. rewrite tag_header_find, Pu, Po, act_header_other by auto. exact Hp.
Qed.
(** the conditions along a whole list of actions *)
Fixpoint fits_all (l : list action) (r : registry) (e : egress) : Prop :=
  match l with
  | [] => True
  | a :: t => fits e a /\ forall r' e', sim_action e a r = (r', Ok e') -> fits_all t r' e'
  end.
Fixpoint blanks_all (below : packet) (l : list action) (r : registry) (e : egress) (p : packet) : Prop :=
  match l with
  | [] => True
  | a :: t => blanks e a p /\ forall r' e', sim_action e a r = (r', Ok e') -> blanks_all below t r' e' (tag_header below a p)
  end.
Lemma tag_run l : forall r e, reg_ok r -> eg_ok r e -> fits_all l r e ->
  runs (sfold sim_action l e) r (fun r' e' => eg_ok r' e' /\ forall below p, blanks_all below l r e p -> maccepts (eg_sim e) p ->
    maccepts (eg_sim e') (fold_left (fun q a => tag_header below a q) l p)).
Proof.
  induction l as [|a t IH]; intros r e Hr He Hf; cbn [sfold fold_left].
  { apply runs_ret; [auto|]. split; [auto|]. intros below p _ H. exact H. }
  destruct Hf as [F1 F2]. destruct (tag_step r e a Hr He F1) as (r1 & e1 & Er & R1 & L1 & E1 & P1).
  destruct (IH r1 e1 R1 E1 (F2 r1 e1 Er)) as (r2 & e2 & Er2 & R2 & L2 & E2 & P2).
  exists r2, e2. unfold sbind. rewrite Er. split; [auto|]. split; [auto|]. split; [eapply rle_trans; eauto|]. split; [auto|].
  intros below p [B1 B2] Hp. apply P2; [now apply B2|now apply P1].
Qed.
(** a field matched exactly is known *)
Lemma exact_blank m f v id p : mget m f = Some (v, None, id) -> blank m f p.
Proof. intros E b W. rewrite E. split; [intros v0 mk0 id0 [= <- <- <-] j _ H; discriminate H|intros j _ H; discriminate H]. Qed.
Lemma absent_blank m f p : mget m f = None -> (forall j, fbit p f j = false) -> blank m f p.
Proof. intros E H b W. rewrite E. split; [intros v0 mk0 id0 Q; discriminate Q|auto]. Qed.

(** ** Tame lists of actions *)
Definition tame_inv (K : string -> Prop) (D : string -> Z) (m : Match) : Prop :=
  (forall f, K f -> exact_in m f) /\
  forall t f, In t tunnels -> In f (tun_fields t) -> (D (tun_push t) <= 0 -> mhas m (l1 f) = false) /\ (D (tun_push t) <= 1 -> mhas m (l2 f) = false).
Lemma across_check : forallb (fun t => forallb (fun u => String.eqb (tun_push t) (tun_push u) ||
  forallb (fun f => forallb (apartb f) (tun_fields u)) (tun_fields t)) tunnels) tunnels = true.
Proof. vm_compute. reflexivity. Qed.
Lemma across t u f g : In t tunnels -> In u tunnels -> tun_push t <> tun_push u -> In f (tun_fields t) -> In g (tun_fields u) -> apart f g.
Proof.
  intros Ht Hu N Hf Hg. assert (H := across_check). rewrite forallb_forall in H. specialize (H t Ht). rewrite forallb_forall in H. specialize (H u Hu).
  rewrite (proj2 (String.eqb_neq _ _) N) in H. cbn [orb] in H. rewrite forallb_forall in H. specialize (H f Hf). rewrite forallb_forall in H. apply apartb_ok. auto.
Qed.
Lemma same_tun_check : forallb (fun t => forallb (fun u => implb (String.eqb (tun_push t) (tun_push u)) (forallb (fun f => existsb (String.eqb f) (tun_fields u)) (tun_fields t))) tunnels) tunnels = true.
Proof. vm_compute. reflexivity. Qed.
Lemma same_tun t u f : In t tunnels -> In u tunnels -> tun_push t = tun_push u -> In f (tun_fields t) -> In f (tun_fields u).
Proof.
  intros Ht Hu N Hf. assert (H := same_tun_check). rewrite forallb_forall in H. specialize (H t Ht). rewrite forallb_forall in H. specialize (H u Hu).
  rewrite (proj2 (String.eqb_eq _ _) N) in H. cbn [implb] in H. rewrite forallb_forall in H. specialize (H f Hf). apply existsb_exists in H as (x & Hx & E). apply String.eqb_eq in E. now subst x.
Qed.
Lemma inner_l1 f : tag_field f -> inner_field (l1 f).
Proof.
  intros Hf. destruct (tag_levels f Hf) as (b & _ & (_ & s & A & B & _) & _). exists s, f, "1". split; [auto|]. split; [auto|]. split; [now left|reflexivity].
Qed.
Lemma inner_l2 f : tag_field f -> inner_field (l2 f).
Proof.
  intros Hf. destruct (tag_levels f Hf) as (b & _ & _ & (_ & s & A & B & _)). exists s, f, "2". split; [auto|]. split; [auto|]. split; [right; now left|reflexivity].
Qed.
Lemma push_tag a : push_of a = tag_push a.
Proof. unfold push_of, tag_push. apply find_tun_find. Qed.
Lemma pop_tag a : pop_of a = tag_pop a.
Proof. unfold pop_of, tag_pop. apply find_tun_find. Qed.
(** [K] may mention fields of the tunnels and others; after a push or pop the values of the
    others are as before *)
Lemma tame_run l : forall (K : string -> Prop) (D : string -> Z) r e, reg_ok r -> eg_ok r e -> (forall f, K f -> ~ inner_field f) -> tame_inv K D (eg_sim e) -> (forall n, 0 <= D n) -> tame K D l ->
  runs (sfold sim_action l e) r (fun r' e' => eg_ok r' e' /\ forall below p, maccepts (eg_sim e) p -> maccepts (eg_sim e') (fold_left (fun q a => tag_header below a q) l p)).
Proof.
  induction l as [|a l IH]; intros K D r e Hr He HK [I1 I2] HD Ht; cbn [sfold fold_left].
  { apply runs_ret; [auto|]. split; [auto|]. intros below p H. exact H. }
  cbn [tame] in Ht. destruct (tag_push a) as [t|] eqn:Pu.
  - destruct Ht as (Hd & Hk & Ht). rewrite <- push_tag in Pu. assert (It : In t tunnels) by (apply find_tun_name in Pu; tauto).
    assert (Ns : String.eqb (fst a) "SET_FIELD" = false).
    { destruct (String.eqb_spec (fst a) "SET_FIELD") as [E|E]; [|reflexivity]. destruct (set_not_tag a E) as [Q _]. congruence. }
    assert (Tf : forall f, In f (tun_fields t) -> tag_field f) by (intros f Hf; exists t; auto).
    eapply runs_bind.
    { unfold sim_action. rewrite Ns, Pu. eapply runs_bind; [apply push_fields_runs; auto; [now apply tunnel_apart|intros f Hf; apply (I2 t f It Hf); lia]|].
      intros r1 e1 R1 L1 (E1 & O1 & S1 & U1 & P1). apply runs_ret; [auto|].
      instantiate (1 := fun r' e' => eg_ok r' e' /\ tame_inv K (fun n => if String.eqb n (tun_push t) then D n + 1 else D n) (eg_sim e') /\
        forall below p, maccepts (eg_sim e) p -> maccepts (eg_sim e') (tag_header below a p)). cbn beta.
      split; [destruct E1; constructor; auto|]. cbn [eg_sim]. split.
      - split.
        + intros f Hf. destruct (in_dec string_dec f (tun_fields t)) as [Hi|Hn]; [apply (U1 f Hi)|]. destruct (I1 f Hf) as (v & id & X). exists v, id. rewrite S1; [exact X|].
          intros g Hg. split; [intros ->; contradiction|]. split; intros ->; apply (HK _ Hf); [apply inner_l1|apply inner_l2]; auto.
        + intros u f Iu Hf. destruct (String.eqb_spec (tun_push u) (tun_push t)) as [E|E].
          * assert (Hf' := same_tun u t f Iu It E Hf). destruct (U1 f Hf') as (_ & U2 & U3). rewrite U2, U3. rewrite E in *. specialize (HD (tun_push t)).
            split; [lia|]. intros Q. apply (I2 t f It Hf'). lia.
          * assert (Q : forall n, In n [f; l1 f; l2 f] -> mhas (eg_sim e1) n = mhas (eg_sim e) n).
            { intros n Hn. unfold mhas. rewrite S1; [reflexivity|]. intros g Hg. apply (across t u g f It Iu (not_eq_sym E) Hg Hf n Hn). }
            rewrite !Q by (cbn; auto). apply (I2 u f Iu Hf).
      - intros below p Hp. rewrite tag_header_find, Pu. apply P1; [|exact Hp]. intros f Hf. destruct (I1 f (Hk f Hf)) as (v & id & X). now apply (exact_blank _ _ v id). }
    intros r1 e1 R1 L1 (E1 & V1 & P1). eapply runs_weaken; [apply (IH K _ r1 e1 R1 E1 HK V1); [|exact Ht]|].
    + intros n. specialize (HD n). destruct (String.eqb n (tun_push t)); lia.
    + intros r2 e2 _ _ (E2 & P2). split; [auto|]. intros below p Hp. apply P2. now apply P1.
  - destruct (tag_pop a) as [t|] eqn:Po.
    + destruct Ht as (Hd & Ht). rewrite <- push_tag in Pu. rewrite <- pop_tag in Po. assert (It : In t tunnels) by (apply find_tun_name in Po; tauto).
      assert (Ns : String.eqb (fst a) "SET_FIELD" = false).
      { destruct (String.eqb_spec (fst a) "SET_FIELD") as [E|E]; [|reflexivity]. destruct (set_not_tag a E) as [_ Q]. congruence. }
      assert (Tf : forall f, In f (tun_fields t) -> tag_field f) by (intros f Hf; exists t; auto).
      eapply runs_bind.
      { unfold sim_action. rewrite Ns, Pu, Po. eapply runs_bind; [apply pop_fields_runs; auto; [now apply tunnel_apart|intros f Hf; right; apply (I2 t f It Hf); lia]|].
        intros r1 e1 R1 L1 (E1 & O1 & S1 & U1 & P1). apply runs_ret; [auto|].
        instantiate (1 := fun r' e' => eg_ok r' e' /\ tame_inv (fun f => K f /\ ~ In f (tun_fields t)) (fun n => if String.eqb n (tun_push t) then 0 else D n) (eg_sim e') /\
          forall below p, maccepts (eg_sim e) p -> maccepts (eg_sim e') (tag_header below a p)). cbn beta.
        split; [destruct E1; constructor; auto|]. cbn [eg_sim]. split.
        - split.
          + intros f [Hf Hn]. destruct (I1 f Hf) as (v & id & X). exists v, id. rewrite S1; [exact X|].
            intros g Hg. split; [intros ->; contradiction|]. split; intros ->; apply (HK _ Hf); [apply inner_l1|apply inner_l2]; auto.
          + intros u f Iu Hf. destruct (String.eqb_spec (tun_push u) (tun_push t)) as [E|E].
            * assert (Hf' := same_tun u t f Iu It E Hf). destruct (U1 f Hf') as (U2 & U3). rewrite U2, U3.
              split; [|reflexivity]. intros _. apply (I2 t f It Hf'). lia.
            * assert (Q : forall n, In n [f; l1 f; l2 f] -> mhas (eg_sim e1) n = mhas (eg_sim e) n).
              { intros n Hn. unfold mhas. rewrite S1; [reflexivity|]. intros g Hg. apply (across t u g f It Iu (not_eq_sym E) Hg Hf n Hn). }
              rewrite !Q by (cbn; auto). apply (I2 u f Iu Hf).
        - intros below p Hp. rewrite tag_header_find, Pu, Po. now apply P1. }
      intros r1 e1 R1 L1 (E1 & V1 & P1). eapply runs_weaken; [apply (IH _ _ r1 e1 R1 E1 (fun f Hf => HK f (proj1 Hf)) V1); [|exact Ht]|].
      * intros n. specialize (HD n). destruct (String.eqb n (tun_push t)); lia.
      * intros r2 e2 _ _ (E2 & P2). split; [auto|]. intros below p Hp. apply P2. now apply P1.
    + rewrite <- push_tag in Pu. rewrite <- pop_tag in Po. destruct (String.eqb_spec (fst a) "SET_FIELD") as [Es|Es].
      * destruct Ht as (f & v & Ev & Hs & Hn & Ht).
        eapply runs_bind.
        { unfold sim_action. rewrite (proj2 (String.eqb_eq _ _) Es), Ev. unfold sim_set.
          eapply runs_bind; [apply append_runs; [auto|apply He]|]. intros r1 s1 R1 L1 (M1 & x & X & G).
          eapply runs_bind; [apply append_runs; [auto|eapply match_ok_mono; [exact L1|apply He]]|]. intros r2 w1 R2 L2 (W1 & y & Y & G').
          apply runs_ret; [auto|].
          instantiate (1 := fun r' e' => eg_ok r' e' /\ tame_inv (fun g => K g \/ g = f) D (eg_sim e') /\
            forall below p, maccepts (eg_sim e) p -> maccepts (eg_sim e') (tag_header below a p)). cbn beta.
          split; [constructor; cbn [eg_sim eg_rew]|cbn [eg_sim]; split].
          - eapply match_ok_mono; eauto.
          - auto.
          - eapply known_set; [apply (eo_known r e He)| |exact G]. exact Hs.
          - intros n. unfold mhas. rewrite G, G'. destruct (String.eqb f n); [auto|]. apply (eo_sub r e He).
          - split.
            + intros g Hg. unfold exact_in. rewrite G. destruct (String.eqb_spec f g) as [E|E]; [|destruct Hg as [Hg|Hg]; [now apply I1|congruence]].
              destruct x as [[v' mk'] id']. destruct X as (X & _). destruct (X eq_refl) as (-> & ->). eauto.
            + intros u g Iu Hg. assert (Tg : tag_field g) by (exists u; auto). unfold mhas. rewrite !G.
              destruct (String.eqb_spec f (l1 g)) as [E|E]; [exfalso; apply Hn; rewrite E; now apply inner_l1|].
              destruct (String.eqb_spec f (l2 g)) as [E'|E']; [exfalso; apply Hn; rewrite E'; now apply inner_l2|]. apply (I2 u g Iu Hg).
          - intros below p Hp. rewrite tag_header_find, Pu, Po. destruct a as [an av]. cbn [fst snd] in Es, Ev. subst an av. rewrite act_header_set.
            exact (set_accepts r1 (eg_sim e) s1 f v x p X G M1 r (eo_sim r e He) Hp). }
        intros r1 e1 R1 L1 (E1 & V1 & P1). eapply runs_weaken; [apply (IH _ D r1 e1 R1 E1) with (2 := V1); [|exact HD|exact Ht]|].
        -- intros g [Hg|Hg]; [now apply HK|now rewrite Hg].
        -- intros r2 e2 _ _ (E2 & P2). split; [auto|]. intros below p Hp. apply P2. now apply P1.
      * eapply runs_bind with (post := fun r' e' => e' = e /\ r' = r); [unfold sim_action; rewrite (proj2 (String.eqb_neq _ _) Es), Pu, Po; apply runs_ret; auto|].
        intros r1 e1 R1 L1 [-> ->]. eapply runs_weaken; [apply (IH K D r e); auto; split; auto|].
        intros r2 e2 _ _ (E2 & P2). split; [auto|]. intros below p Hp. apply P2. now rewrite tag_header_find, Pu, Po, act_header_other by auto.
Qed.

(** ** Write-metadata at the end *)
Lemma meta_accepts r e wm : reg_ok r -> match_ok r (eg_sim e) -> match_ok r (eg_rew e) ->
  runs (sim_metadata e wm) r (fun r' e' => match_ok r' (eg_sim e') /\ forall p, maccepts (eg_sim e) p -> maccepts (eg_sim e') (metadata_header wm p)).
Proof.
  intros Hr He Hw0. unfold sim_metadata. destruct wm as [[wv wk]|]; [|apply runs_ret; auto].
  eapply runs_bind with (post := fun r' s => match_ok r' s /\ forall i, cbit s i = ov (rset "METADATA" wv wk i) (cbit (eg_sim e) i)).
  - destruct (mget (eg_sim e) "METADATA") as [[[mv mk] mid]|] eqn:Em.
    + destruct wk as [wk|].
      * eapply runs_weaken; [apply append_runs; [auto|exact He]|]. intros r1 s R1 L1 (Hs & x & Hx & Gx). split; auto.
        intros i. unfold rset. destruct (slot_at i) as [sl|] eqn:Es; [|unfold cbit; rewrite Es; reflexivity].
        rewrite !(cbit_eq _ _ _ Es), Gx, String.eqb_sym. destruct (String.eqb_spec (sl_name sl) "METADATA") as [E|E]; cbn [andb ov]; [|reflexivity].
        rewrite E, Em. apply slot_at_in in Es as [Hs1 Hi1]. destruct x as [[v' mk'] id']. destruct Hx as [_ Hx]. rewrite (Hx sl Hs1 E) by lia.
        assert (Bv : Z.testbit (Z.lor (Z.land wv wk) (Z.land (Z.lnot wk) mv)) (i - sl_off sl) =
                     if Z.testbit wk (i - sl_off sl) then Z.testbit wv (i - sl_off sl) else Z.testbit mv (i - sl_off sl)).
        { rewrite Z.lor_spec, !Z.land_spec, Z.lnot_spec by lia. destruct (Z.testbit wk _), (Z.testbit wv _), (Z.testbit mv _); reflexivity. }
        cbn [ibit mask_bit]. rewrite Bv. destruct mk as [mk|]; cbn [mask_bit].
        -- rewrite Z.lor_spec. destruct (Z.testbit wk _), (Z.testbit mk _); reflexivity.
        -- destruct (Z.testbit wk _); reflexivity.
      * eapply runs_weaken; [apply append_runs; [auto|exact He]|]. intros r1 s R1 L1 (Hs & x & Hx & Gx). split; auto.
        intros i. now rewrite (cbit_upd _ s _ _ _ _ i Hx Gx eq_refl).
    + eapply runs_weaken; [apply append_runs; [auto|exact He]|]. intros r1 s R1 L1 (Hs & x & Hx & Gx). split; auto.
      intros i. unfold rset. destruct (slot_at i) as [sl|] eqn:Es; [|unfold cbit; rewrite Es; reflexivity].
      rewrite !(cbit_eq _ _ _ Es), Gx, String.eqb_sym. destruct (String.eqb_spec (sl_name sl) "METADATA") as [E|E]; cbn [andb ov]; [|reflexivity].
      rewrite E, Em. apply slot_at_in in Es as [Hs1 Hi1]. destruct x as [[v' mk'] id']. destruct Hx as [_ Hx]. rewrite (Hx sl Hs1 E) by lia.
      cbn [ibit]. destruct (mask_bit wk (i - sl_off sl)); reflexivity.
  - intros r1 s R1 L1 (Hs & Bs).
    eapply runs_bind; [apply append_runs; [auto|eapply match_ok_mono; [exact L1|exact Hw0]]|]. intros r2 w R2 L2 _.
    apply runs_ret; auto. cbn [eg_sim]. split; [eapply match_ok_mono; [exact L2|auto]|].
    intros p Hp. apply (accepts_cbit _ _ (proj1 Hs)). intros i c Hc. rewrite Bs in Hc. cbn [metadata_header]. rewrite write_field_rw. unfold apply_rw.
    destruct (rset "METADATA" wv wk i) as [c'|]; cbn [ov] in Hc; [now injection Hc|]. now apply (accepts_cbit _ _ (proj1 He)).
Qed.

(** the whole egress *)
Lemma tame_egress r m i : reg_ok r -> match_ok r m -> known m -> (forall k, In k (mkeys m) -> ~ inner_field k) ->
  tame (fixed_by (items_view (m_items m))) (fun _ => 0) (al_iter (apply_actions i)) ->
  exists r' g, get_goto_egress m i None r = (r', Ok g) /\ reg_ok r' /\ rle r r' /\ match_ok r' g /\
  forall below p, maccepts m p -> maccepts g (metadata_header (write_metadata i) (fold_left (fun q a => tag_header below a q) (al_iter (apply_actions i)) p)).
Proof.
  intros Hr Hm Hk Hin Ht.
  assert (Hget : forall f, fixed_by (items_view (m_items m)) f -> exact_in m f).
  { intros f (v & H). apply items_view_in in H as (id & H). exists v, id. unfold mget. apply dict_in_get; [apply Hm|exact H]. }
  assert (No : forall k, inner_field k -> mhas m k = false).
  { intros k Hi. destruct (mhas m k) eqn:E; [|reflexivity]. apply mhas_keys in E. now elim (Hin k E). }
  assert (R : runs (get_goto_egress m i None) r (fun r' g => match_ok r' g /\
    forall below p, maccepts m p -> maccepts g (metadata_header (write_metadata i) (fold_left (fun q a => tag_header below a q) (al_iter (apply_actions i)) p)))).
  { unfold get_goto_egress, simulated_egress. eapply runs_bind.
    - eapply runs_bind with (post := fun r' s => s = m /\ r' = r); [apply runs_ret; auto|]. intros r1 s R1 L1 [-> ->].
      eapply runs_bind; [apply (tame_run _ (fixed_by (items_view (m_items m))) (fun _ => 0) r (mkEg m match_new []))|]; auto.
      + constructor; cbn [eg_sim eg_rew]; auto using match_new_ok. intros n Q; discriminate Q.
      + intros f Hf. destruct (Hget f Hf) as (v & id & X). apply Hin. apply mhas_keys. unfold mhas. now rewrite X.
      + cbn [eg_sim]. split; [exact Hget|]. intros t f It Hf. assert (tag_field f) by (exists t; auto). split; intros _; apply No; auto using inner_l1, inner_l2.
      + intros n. lia.
      + intros r2 e R2 L2 (E2 & P2). eapply runs_weaken; [apply (meta_accepts r2 e _ R2); apply E2|].
        intros r3 e3 R3 L3 (M3 & P3).
        instantiate (1 := fun r' e' => match_ok r' (eg_sim e') /\ forall below p, maccepts m p ->
          maccepts (eg_sim e') (metadata_header (write_metadata i) (fold_left (fun q a => tag_header below a q) (al_iter (apply_actions i)) p))). cbn beta.
        split; [exact M3|]. intros below p Hp. apply P3. now apply P2.
    - intros r2 e R2 L2 H. apply runs_ret; [auto|]. exact H. }
  destruct R as (r' & g & E & R' & L & M & P). exists r', g. auto.
Qed.
