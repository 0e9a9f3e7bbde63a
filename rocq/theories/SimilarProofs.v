(** Proofs about the key by which create_similar_groups sorts the rules. *)
From Coq Require Import Lia Permutation Sorted.
From Coq Require Import ZifyBool ZifyNat ZifyN.
From Verif Require Import SpecBdd WildcardProofs MatchProofs MergeProofs ActionProofs SingleTableProofs Compress SpecCompress DepsProofs DepsTable TreeProofs GroupProofs.
Local Open Scope string_scope.
Local Open Scope list_scope.
Local Open Scope Z_scope.
Local Opaque NB WC_FULLWC layout oxm_fields registry_init ODD_MASK.

(** ** The mask *)
Lemma mask_bit_of w i : 0 <= i -> Z.testbit (get_wildcard_mask w) i = Z.testbit w i && Z.testbit w (i + 1) && ((i <? 2 * NB) && Z.even i).
Proof. intros Hi. unfold get_wildcard_mask. rewrite !Z.land_spec, Z.shiftr_spec, ODD_MASK_testbit by lia. reflexivity. Qed.
Lemma mask_tests R w i : wc_ok w -> (forall p, accepts w p <-> rule_accepts R p) -> 0 <= i < NB -> (tests R i <-> Z.testbit (get_wildcard_mask w) (2 * i) = false).
Proof.
  intros [Rg Zf] A Hi. rewrite mask_bit_of by lia. rewrite even_2i. replace (2 * i <? 2 * NB) with true by lia. rewrite !andb_true_r. split.
  - intros (_ & p & H1 & H2). rewrite <- A in H1, H2. destruct (Z.testbit w (2 * i)) eqn:B0, (Z.testbit w (2 * i + 1)) eqn:B1; cbn [andb]; try reflexivity.
    exfalso. apply H2. intros k Hk. unfold flip. destruct (Z.eqb_spec k i) as [->|N]; [|now apply H1]. destruct (negb (p i)); [exact B1|now rewrite Z.add_0_r].
  - intros H. split; [exact Hi|]. pose (p := fun k : Z => Z.testbit w (2 * k + 1)). exists p.
    assert (P : accepts w p). { intros k Hk. unfold p. destruct (Z.testbit w (2 * k + 1)) eqn:E; [exact E|]. destruct (Zf k Hk) as [X|X]; [now rewrite Z.add_0_r|congruence]. }
    split; [now apply A|]. rewrite <- A. intros Q. specialize (Q i Hi). unfold flip in Q. rewrite Z.eqb_refl in Q. specialize (P i Hi). unfold p in P, Q.
    destruct (Z.testbit w (2 * i + 1)) eqn:E; cbn [negb] in Q; [rewrite Z.add_0_r in Q; rewrite Q in H; discriminate H|congruence].
Qed.
Lemma mask_eq R S w w' : wc_ok w -> wc_ok w' -> (forall p, accepts w p <-> rule_accepts R p) -> (forall p, accepts w' p <-> rule_accepts S p) ->
  (get_wildcard_mask w = get_wildcard_mask w' <-> forall i, tests R i <-> tests S i).
Proof.
  intros W W' A A'. split.
  - intros E i. split; intros T; assert (Hi : 0 <= i < NB) by apply T.
    + apply (mask_tests S w' i W' A' Hi). rewrite <- E. now apply (mask_tests R w i W A Hi).
    + apply (mask_tests R w i W A Hi). rewrite E. now apply (mask_tests S w' i W' A' Hi).
  - intros H. apply Z.bits_inj'. intros n Hn. destruct ((n <? 2 * NB) && Z.even n) eqn:E.
    + apply andb_true_iff in E as [E1 E2]. apply Z.even_spec in E2 as (i & ->). assert (Hi : 0 <= i < NB) by lia.
      assert (X := mask_tests R w i W A Hi). assert (X' := mask_tests S w' i W' A' Hi). specialize (H i).
      destruct (Z.testbit (get_wildcard_mask w) (2 * i)) eqn:B, (Z.testbit (get_wildcard_mask w') (2 * i)) eqn:B'; try reflexivity; exfalso.
      * assert (true = false) by tauto. discriminate.
      * assert (true = false) by tauto. discriminate.
    + rewrite !mask_bit_of, E, !andb_false_r by lia. reflexivity.
Qed.

(** ** The kinds of actions *)
Definition ok_type (t : atype) : Prop := match t with TName n => In n plain_names | TSet _ => True end.
Lemma to_type_ok a : of_action a -> exists ty, to_type a = Ok ty /\ ok_type ty.
Proof.
  intros [H|(E & f & v & Ev)]; unfold to_type.
  - assert (N : String.eqb (fst a) "SET_FIELD" = false).
    { unfold plain_names in H. repeat (destruct H as [<-|H]; [reflexivity|]). destruct H. }
    rewrite N. eauto.
  - rewrite E, Ev. cbn [String.eqb Ascii.eqb Bool.eqb]. exists (TSet f). split; [reflexivity|exact Logic.I].
Qed.
Definition kind_type (n : string) (f : option string) : option atype :=
  if String.eqb n "SET_FIELD" then match f with Some f => Some (TSet f) | None => None end else match f with None => Some (TName n) | _ => None end.
Lemma to_type_kind a : of_action a -> forall n f ty, kind_type n f = Some ty ->
  (to_type a = Ok ty <-> fst a = n /\ if String.eqb n "SET_FIELD" then exists f' v, f = Some f' /\ snd a = VSet f' v else f = None).
Proof.
  intros Ha n f ty E. unfold kind_type in E. unfold to_type. destruct (String.eqb_spec n "SET_FIELD") as [->|N].
  - destruct f as [f|]; [|discriminate E]. injection E as <-. destruct (String.eqb_spec (fst a) "SET_FIELD") as [E|N].
    + destruct Ha as [H|(_ & g & v & Ev)]; [rewrite E in H; exfalso; revert H; clear; unfold plain_names; cbn; intuition discriminate|].
      rewrite Ev. split; [intros [= ->]; split; [exact E|eauto]|]. intros [_ (f' & v' & [= ->] & [= -> ->])]. reflexivity.
    + split; [discriminate|tauto].
  - destruct f as [f|]; [discriminate E|]. injection E as <-. destruct (String.eqb_spec (fst a) "SET_FIELD") as [E|N'].
    + destruct Ha as [H|(_ & g & v & Ev)]; [rewrite E in H; exfalso; revert H; clear; unfold plain_names; cbn; intuition discriminate|].
      rewrite Ev. split; [discriminate|]. intros [X _]. congruence.
    + split; [intros [= ->]; auto|]. intros [-> _]. reflexivity.
Qed.

Lemma atype_eqb_eq a b : atype_eqb a b = true <-> a = b.
Proof.
  destruct a as [n|f], b as [m|g]; cbn [atype_eqb]; try (split; [discriminate|congruence]); rewrite String.eqb_eq; split; congruence.
Qed.
Lemma type_in_in t l : type_in t l = true <-> In t l.
Proof.
  unfold type_in. rewrite existsb_exists. split; [intros (x & Hx & E); apply atype_eqb_eq in E; now subst|]. intros H. exists t. split; [exact H|]. now apply atype_eqb_eq.
Qed.
Lemma add_types_ok l : forall acc, NoDup acc -> NoDup (fold_left add_type l acc) /\ forall x, In x (fold_left add_type l acc) <-> In x acc \/ In x l.
Proof.
  induction l as [|y l IH]; intros acc N; cbn [fold_left].
  - split; [exact N|]. intros x. cbn [In]. tauto.
  - assert (N' : NoDup (add_type acc y) /\ forall x, In x (add_type acc y) <-> In x acc \/ x = y).
    { unfold add_type. destruct (type_in y acc) eqn:E.
      - apply type_in_in in E. split; [exact N|]. intros x. split; [auto|]. intros [H| ->]; assumption.
      - split.
        + apply (Permutation_NoDup (Permutation_cons_append acc y)). constructor; [|exact N]. intros X. apply type_in_in in X. congruence.
        + intros x. rewrite in_app_iff. cbn [In]. intuition auto. }
    destruct (IH _ (proj1 N')) as [A B]. split; [exact A|]. intros x. rewrite B, (proj2 N' x). cbn [In]. intuition auto.
Qed.

Lemma append_inj_l (a b c : string) : (a ++ b = a ++ c)%string -> b = c.
Proof. induction a as [|x a IH]; cbn; [auto|]. intros [= H]. auto. Qed.
Lemma append_inj_r (a b c : string) : String.length a = String.length b -> (a ++ c = b ++ c)%string -> a = b.
Proof. revert b. induction a as [|x a IH]; intros [|y b]; cbn; try discriminate; [auto|]. intros [= L] [= -> H]. f_equal. auto. Qed.
Lemma append_length (a b : string) : String.length (a ++ b) = (String.length a + String.length b)%nat.
Proof. induction a as [|x a IH]; cbn; [reflexivity|]. now rewrite IH. Qed.
Lemma type_str_inj a b : ok_type a -> ok_type b -> type_str a = type_str b -> a = b.
Proof.
  destruct a as [n|f], b as [m|g]; cbn [ok_type type_str]; intros Ha Hb E.
  - now subst.
  - exfalso. rewrite E in Ha. revert Ha. clear. unfold plain_names. cbn. intuition discriminate.
  - exfalso. rewrite <- E in Hb. revert Hb. clear. unfold plain_names. cbn. intuition discriminate.
  - apply append_inj_l in E. assert (L := f_equal String.length E). rewrite !append_length in L. apply append_inj_r in E; [now subst|lia].
Qed.
(** fields come before the other actions *)
Lemma set_first n f : In n plain_names -> str_le n (type_str (TSet f)) = false.
Proof. intros H. unfold plain_names in H. repeat (destruct H as [<-|H]; [reflexivity|]). destruct H. Qed.

Definition ty_le (a b : atype) : bool := str_le (type_str a) (type_str b).
Lemma str_le_trans a b c : str_le a b = true -> str_le b c = true -> str_le a c = true.
Proof. apply (cle_trans String.compare scmp_ok). Qed.
Lemma str_le_total a b : str_le a b = false -> str_le b a = true.
Proof. apply (cle_total String.compare scmp_ok). Qed.
Lemma str_le_anti a b : str_le a b = true -> str_le b a = true -> a = b.
Proof.
  destruct scmp_ok as (E & A & _). unfold str_le. rewrite (A a b). destruct (String.compare a b) eqn:X; cbn [CompOpp]; try discriminate. intros _ _. now apply E.
Qed.

Lemma sorted_types_eq : forall a b, StronglySorted (fun x y => ty_le x y = true) a -> StronglySorted (fun x y => ty_le x y = true) b ->
  NoDup a -> NoDup b -> Forall ok_type a -> Forall ok_type b -> (forall x, In x a <-> In x b) -> a = b.
Proof.
  induction a as [|x a IH]; intros [|y b] Sa Sb Na Nb Oa Ob H; [reflexivity|exfalso; apply (proj2 (H y)); now left|exfalso; apply (proj1 (H x)); now left|].
  inversion Sa as [|? ? Sa' Fa]; subst. inversion Sb as [|? ? Sb' Fb]; subst. inversion Na as [|? ? Na1 Na2]; subst. inversion Nb as [|? ? Nb1 Nb2]; subst.
  inversion Oa as [|? ? Oa1 Oa2]; subst. inversion Ob as [|? ? Ob1 Ob2]; subst. rewrite Forall_forall in Fa, Fb.
  assert (E : x = y).
  { destruct (proj1 (H x) (or_introl eq_refl)) as [E|X]; [congruence|]. destruct (proj2 (H y) (or_introl eq_refl)) as [E|Y]; [exact E|].
    apply type_str_inj; auto. apply str_le_anti; [now apply Fa|now apply Fb]. }
  subst y. f_equal. apply IH; auto. intros z. split; intros Hz.
  - destruct (proj1 (H z) (or_intror Hz)) as [<-|X]; [contradiction|exact X].
  - destruct (proj2 (H z) (or_intror Hz)) as [<-|X]; [contradiction|exact X].
Qed.
Lemma types_cmp_ok : forall a b, StronglySorted (fun x y => ty_le x y = true) a -> StronglySorted (fun x y => ty_le x y = true) b ->
  NoDup a -> NoDup b -> Forall ok_type a -> Forall ok_type b -> (forall f, In (TSet f) a <-> In (TSet f) b) -> is_ok (types_cmp a b) = true.
Proof.
  induction a as [|x a IH]; intros [|y b] Sa Sb Na Nb Oa Ob H; [reflexivity|reflexivity|cbn [types_cmp]; destruct x; reflexivity|].
  inversion Sa as [|? ? Sa' Fa]; subst. inversion Sb as [|? ? Sb' Fb]; subst. inversion Na as [|? ? Na1 Na2]; subst. inversion Nb as [|? ? Nb1 Nb2]; subst.
  inversion Oa as [|? ? Oa1 Oa2]; subst. inversion Ob as [|? ? Ob1 Ob2]; subst. rewrite Forall_forall in Fa, Fb.
  assert (Tl : x = y -> is_ok (types_cmp a b) = true).
  { intros <-. apply IH; auto. intros f. split; intros Hz.
    - destruct (proj1 (H f) (or_intror Hz)) as [E|X]; [subst x; contradiction|exact X].
    - destruct (proj2 (H f) (or_intror Hz)) as [E|X]; [subst x; contradiction|exact X]. }
  destruct x as [n|f], y as [m|g]; cbn [types_cmp].
  - destruct (String.compare n m) eqn:E; try reflexivity. apply str_cmp_eq in E. subst. now apply Tl.
  - exfalso. destruct (proj2 (H g) (or_introl eq_refl)) as [E|X]; [discriminate E|]. specialize (Fa _ X). unfold ty_le in Fa. cbn [ok_type] in Oa1. change (type_str (TName n)) with n in Fa. rewrite set_first in Fa; [discriminate Fa|exact Oa1].
  - exfalso. destruct (proj1 (H f) (or_introl eq_refl)) as [E|X]; [discriminate E|]. specialize (Fb _ X). unfold ty_le in Fb. cbn [ok_type] in Ob1. change (type_str (TName m)) with m in Fb. rewrite set_first in Fb; [discriminate Fb|exact Ob1].
  - destruct (String.compare f g) eqn:E; try reflexivity. apply str_cmp_eq in E. subst. now apply Tl.
Qed.

(** ** The key *)
Definition rule_ok (r : registry) (R : rule) : Prop :=
  match_ok r (rmatch (rcore R)) /\ inst_wf (inst (rcore R)) /\ (forall a, does R a -> of_action a) /\ goto_table (inst (rcore R)) <> Some 0.
Record key_of (R : rule) (k : simkey) : Prop := {
  ko_table : ktable k = table (rcore R);
  ko_prio : kprio k = - priority (rcore R);
  ko_mask : exists w, kmask k = get_wildcard_mask w /\ wc_ok w /\ forall p, accepts w p <-> rule_accepts R p;
  ko_goto : kgoto k = match goto_table (inst (rcore R)) with Some t => t | None => 0 end;
  ko_sorted : StronglySorted (fun x y => ty_le x y = true) (kacts k);
  ko_nodup : NoDup (kacts k);
  ko_types : Forall ok_type (kacts k);
  ko_acts : forall n f ty, kind_type n f = Some ty -> (In ty (kacts k) <-> has_kind R n f) }.
Lemma levels_perm l : al_ok l (orig_order l) -> Permutation (List.concat (action_levels l)) (orig_order l).
Proof. intros [_ H]. rewrite (lrel_concat _ _ H). apply Permutation_sym, foata_perm. Qed.
Lemma types_of l : (forall a, In a l -> of_action a) -> exists ts, rall (map to_type l) = Ok ts /\ Forall ok_type ts /\ forall ty, In ty ts <-> exists a, In a l /\ to_type a = Ok ty.
Proof.
  induction l as [|a l IH]; intros H; cbn [map].
  - exists []. split; [reflexivity|]. split; [constructor|]. intros ty. split; [intros []|intros (a & [] & _)].
  - destruct (to_type_ok a (H a (or_introl eq_refl))) as (ty & E & K). destruct IH as (ts & Et & Ft & It); [intros x Hx; apply H; now right|].
    exists (ty :: ts). unfold rall in *. cbn [rall]. rewrite E. cbn [rbind]. rewrite Et. cbn [rbind]. split; [reflexivity|]. split; [now constructor|].
    intros z. cbn [In]. rewrite It. split.
    + intros [<-|(x & Hx & Ex)]; [exists a; auto|exists x; auto].
    + intros (x & [<-|Hx] & Ex); [left; congruence|right; eauto].
Qed.
Lemma similar_key_ok r R : rule_ok r R -> exists k, similar_key (rcore R) = Ok k /\ key_of R k.
Proof.
  intros (Hm & [Hi Hw] & Ha & _). unfold similar_key.
  assert (Pw := levels_perm _ (proj1 Hw)). assert (Pa := levels_perm _ Hi).
  destruct (types_of (List.concat (action_levels (write_actions (inst (rcore R)))))) as (ws & -> & Fw & Iw).
  { intros a Hin. apply Ha. left. now apply (Permutation_in _ Pw). }
  destruct (types_of (List.concat (action_levels (apply_actions (inst (rcore R)))))) as (aps & -> & Fa & Ia).
  { intros a Hin. apply Ha. right. now apply (Permutation_in _ Pa). }
  cbn [rbind]. destruct (match_wc_ok r _ Hm) as (w & -> & Wok & _ & Acc). cbn [rbind]. eexists. split; [reflexivity|].
  destruct (add_types_ok (ws ++ aps) [] (NoDup_nil _)) as [N I0].
  assert (P := sort_by_perm (fun a b => str_le (type_str a) (type_str b)) (fold_left add_type (ws ++ aps) [])).
  split; cbn [ktable kprio kmask kgoto kacts].
  - reflexivity.
  - reflexivity.
  - exists w. auto.
  - reflexivity.
  - apply sort_by_sorted; intros *; [apply str_le_total|apply str_le_trans].
  - eapply Permutation_NoDup; [apply Permutation_sym; exact P|exact N].
  - rewrite P. apply Forall_forall. intros x Hx. apply I0 in Hx as [[]|Hx]. apply in_app_or in Hx as [Hx|Hx]; [exact (proj1 (Forall_forall _ _) Fw x Hx)|exact (proj1 (Forall_forall _ _) Fa x Hx)].
  - intros n f ty E. assert (X : In ty (sort_by (fun a b => str_le (type_str a) (type_str b)) (fold_left add_type (ws ++ aps) [])) <-> exists a, does R a /\ to_type a = Ok ty).
    { split.
      - intros H. apply (Permutation_in _ P) in H. apply I0 in H as [[]|H]. apply in_app_or in H as [H|H]; [apply Iw in H as (a & Hin & Et)|apply Ia in H as (a & Hin & Et)]; exists a; (split; [|exact Et]).
        + left. now apply (Permutation_in _ Pw).
        + right. now apply (Permutation_in _ Pa).
      - intros (a & [Hd|Hd] & Et); apply (Permutation_in _ (Permutation_sym P)); apply I0; right; apply in_or_app.
        + left. apply Iw. exists a. split; [now apply (Permutation_in _ (Permutation_sym Pw))|exact Et].
        + right. apply Ia. exists a. split; [now apply (Permutation_in _ (Permutation_sym Pa))|exact Et]. }
    rewrite X. unfold has_kind. split; intros (a & Hd & K); exists a; (split; [exact Hd|]); now apply (to_type_kind a (Ha a Hd) n f ty E).
Qed.
Lemma kinds_back k R : key_of R k -> forall n f, has_kind R n f -> exists ty, kind_type n f = Some ty.
Proof.
  intros _ n f (a & _ & _ & H). unfold kind_type. destruct (String.eqb n "SET_FIELD"); [destruct H as (f' & v & -> & _); eauto|subst f; eauto].
Qed.
Lemma kacts_in k R ty : key_of R k -> In ty (kacts k) -> exists n f, kind_type n f = Some ty.
Proof.
  intros K H. assert (O := proj1 (Forall_forall _ _) (ko_types _ _ K) ty H). destruct ty as [n|f]; cbn [ok_type] in O.
  - exists n, None. unfold kind_type. assert (E : String.eqb n "SET_FIELD" = false); [|now rewrite E]. unfold plain_names in O. repeat (destruct O as [<-|O]; [reflexivity|]). destruct O.
  - exists "SET_FIELD", (Some f). reflexivity.
Qed.
Lemma keys_alike r R S k k' : rule_ok r R -> rule_ok r S -> key_of R k -> key_of S k' ->
  (alike R S <-> ktable k = ktable k' /\ kprio k = kprio k' /\ kmask k = kmask k' /\ kgoto k = kgoto k').
Proof.
  intros HR HS K K'. destruct (ko_mask _ _ K) as (w & Ew & W & A), (ko_mask _ _ K') as (w' & Ew' & W' & A').
  rewrite (ko_table _ _ K), (ko_table _ _ K'), (ko_prio _ _ K), (ko_prio _ _ K'), Ew, Ew', (ko_goto _ _ K), (ko_goto _ _ K'), (mask_eq R S w w' W W' A A').
  destruct HR as (_ & _ & _ & GR), HS as (_ & _ & _ & GS). unfold alike. split.
  - intros (T & P & M & G). rewrite G. split; [exact T|]. split; [lia|]. split; [exact M|reflexivity].
  - intros (T & P & M & G). split; [exact T|]. split; [lia|]. split; [exact M|].
    destruct (goto_table (inst (rcore R))), (goto_table (inst (rcore S))); congruence.
Qed.
Lemma keys_similar r R S k k' : rule_ok r R -> rule_ok r S -> key_of R k -> key_of S k' -> (similar R S <-> k = k').
Proof.
  intros HR HS K K'. unfold similar. rewrite (keys_alike r R S k k' HR HS K K'). split.
  - intros ((E1 & E2 & E3 & E4) & H). assert (E5 : kacts k = kacts k').
    { apply sorted_types_eq; try apply K; try apply K'. intros ty. split; intros Hin.
      - destruct (kacts_in _ _ _ K Hin) as (n & f & E). apply (ko_acts _ _ K' n f ty E), H. now apply (ko_acts _ _ K n f ty E).
      - destruct (kacts_in _ _ _ K' Hin) as (n & f & E). apply (ko_acts _ _ K n f ty E), H. now apply (ko_acts _ _ K' n f ty E). }
    destruct k, k'. cbn in *. congruence.
  - intros <-. split; [auto|]. intros n f. split; intros X.
    + destruct (kinds_back _ _ K n f X) as (ty & E). apply (ko_acts _ _ K' n f ty E). now apply (ko_acts _ _ K n f ty E).
    + destruct (kinds_back _ _ K' n f X) as (ty & E). apply (ko_acts _ _ K n f ty E). now apply (ko_acts _ _ K' n f ty E).
Qed.
(** keys without an order belong to mixed rules *)
Lemma keys_compare r R S k k' : rule_ok r R -> rule_ok r S -> key_of R k -> key_of S k' -> is_ok (sim_cmp k k') = false -> mixed R S.
Proof.
  intros HR HS K K' H. assert (Eq : ktable k = ktable k' /\ kprio k = kprio k' /\ kmask k = kmask k' /\ kgoto k = kgoto k' /\ is_ok (types_cmp (kacts k) (kacts k')) = false).
  { unfold sim_cmp in H. destruct (Z.compare_spec (ktable k) (ktable k')) as [E1|_|_]; [|discriminate H|discriminate H]. destruct (Z.compare_spec (kprio k) (kprio k')) as [E2|_|_]; [|discriminate H|discriminate H].
    destruct (Z.compare_spec (kmask k) (kmask k')) as [E3|_|_]; [|discriminate H|discriminate H]. destruct (Z.compare_spec (kgoto k) (kgoto k')) as [E4|_|_]; [|discriminate H|discriminate H]. auto. }
  destruct Eq as (E1 & E2 & E3 & E4 & E5). split; [apply (keys_alike r R S k k' HR HS K K'); auto|].
  set (fields := map (fun t => match t with TSet f => f | TName n => n end) (kacts k ++ kacts k')).
  assert (D : (exists f, ~ (In (TSet f) (kacts k) <-> In (TSet f) (kacts k'))) \/ forall f, In f fields -> (In (TSet f) (kacts k) <-> In (TSet f) (kacts k'))).
  { clearbody fields. induction fields as [|f l IH]; [right; intros f []|]. destruct IH as [IH|IH]; [now left|].
    destruct (type_in (TSet f) (kacts k)) eqn:B1, (type_in (TSet f) (kacts k')) eqn:B2.
    - right. intros g [<-|Hg]; [|auto]. apply type_in_in in B1, B2. tauto.
    - left. exists f. rewrite <- !type_in_in, B1, B2. intros [X _]. specialize (X eq_refl). discriminate X.
    - left. exists f. rewrite <- !type_in_in, B1, B2. intros [_ X]. specialize (X eq_refl). discriminate X.
    - right. intros g [<-|Hg]; [|auto]. rewrite <- !type_in_in, B1, B2. tauto. }
  destruct D as [(f & D)|D].
  - exists f. rewrite <- (ko_acts _ _ K "SET_FIELD" (Some f) (TSet f) eq_refl), <- (ko_acts _ _ K' "SET_FIELD" (Some f) (TSet f) eq_refl). exact D.
  - exfalso. rewrite types_cmp_ok in E5; try apply K; try apply K'; [discriminate E5|]. intros f. split; intros X; apply (D f); try exact X; unfold fields; apply in_map_iff; exists (TSet f); (split; [reflexivity|]); apply in_or_app; auto.
Qed.
