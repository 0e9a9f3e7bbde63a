(** Proofs about ActionList: the levels are the Foata normal form. *)
From Verif Require Export Actions Foata.
Local Open Scope string_scope.
Local Open Scope list_scope.
Local Open Scope Z_scope.

(** ** The ordering *)
Definition act_le (a b : action) : Prop := act_cmp a b = Some Lt \/ act_cmp a b = Some Eq.

Lemma ascii_cmp_trans c a b d : Ascii.compare a b = c -> Ascii.compare b d = c -> Ascii.compare a d = c.
Proof.
  unfold Ascii.compare. intros H1 H2. destruct c.
  - apply N.compare_eq in H1. apply N.compare_eq in H2. rewrite H1, H2. apply N.compare_refl.
  - rewrite N.compare_lt_iff in *. lia.
  - rewrite N.compare_gt_iff in *. lia.
Qed.
Lemma ascii_cmp_eq a b : Ascii.compare a b = Eq <-> a = b.
Proof.
  unfold Ascii.compare. split; [|intros ->; apply N.compare_refl]. intros H. apply N.compare_eq in H.
  rewrite <- (Ascii.ascii_N_embedding a), H. apply Ascii.ascii_N_embedding.
Qed.
Lemma str_cmp_eq a : forall b, String.compare a b = Eq <-> a = b.
Proof.
  induction a as [|x a IH]; intros [|y b]; cbn; try (split; congruence).
  destruct (Ascii.compare x y) eqn:E.
  - apply ascii_cmp_eq in E. subst. rewrite IH. split; congruence.
  - split; [discriminate|]. intros [= -> _]. pose proof (proj2 (ascii_cmp_eq y y) eq_refl). congruence.
  - split; [discriminate|]. intros [= -> _]. pose proof (proj2 (ascii_cmp_eq y y) eq_refl). congruence.
Qed.
Lemma str_cmp_antisym a : forall b, String.compare b a = CompOpp (String.compare a b).
Proof.
  induction a as [|x a IH]; intros [|y b]; cbn; auto.
  replace (Ascii.compare y x) with (CompOpp (Ascii.compare x y)).
  - destruct (Ascii.compare x y); cbn; auto.
  - unfold Ascii.compare. now rewrite N.compare_antisym, CompOpp_involutive.
Qed.
Lemma str_cmp_lt_trans a : forall b c, String.compare a b = Lt -> String.compare b c = Lt -> String.compare a c = Lt.
Proof.
  induction a as [|x a IH]; intros [|y b] [|z c]; cbn; try congruence.
  destruct (Ascii.compare x y) eqn:E1; try discriminate; destruct (Ascii.compare y z) eqn:E2; try discriminate; intros H1 H2.
  - rewrite (ascii_cmp_trans _ _ _ _ E1 E2). eauto.
  - apply ascii_cmp_eq in E1. subst. now rewrite E2.
  - apply ascii_cmp_eq in E2. subst. now rewrite E1.
  - rewrite (ascii_cmp_trans _ _ _ _ E1 E2). auto.
Qed.

Lemma val_cmp_eq x y : val_cmp x y = Some Eq <-> x = y.
Proof.
  destruct x as [|n|f v|t bs], y as [|m|g w|u cs]; cbn [val_cmp]; try (split; congruence).
  - split; [intros [= H]; apply Z.compare_eq in H; congruence|intros [= ->]; now rewrite Z.compare_refl].
  - destruct (String.compare f g) eqn:E; [|split; [discriminate|]..].
    + apply str_cmp_eq in E. subst. split; [intros [= H]; apply Z.compare_eq in H; congruence|intros [= ->]; now rewrite Z.compare_refl].
    + intros [= -> _]. pose proof (proj2 (str_cmp_eq g g) eq_refl). congruence.
    + intros [= -> _]. pose proof (proj2 (str_cmp_eq g g) eq_refl). congruence.
  - pose proof (aval_eqb_eq (VGroup t bs) (VGroup u cs)) as H. destruct (aval_eqb _ _); (split; [|]); intros X; try discriminate; auto; [apply H; reflexivity|]. apply H in X. discriminate.
Qed.
Lemma act_cmp_eq a b : act_cmp a b = Some Eq <-> a = b.
Proof.
  destruct a as [s v], b as [s' v']. unfold act_cmp. cbn [fst snd]. pose proof (str_cmp_eq s s') as H.
  destruct (String.compare s s') eqn:E.
  - rewrite val_cmp_eq. pose proof (proj1 H eq_refl). subst. split; congruence.
  - split; [discriminate|]. intros [= -> _]. pose proof (proj2 (str_cmp_eq s' s') eq_refl). congruence.
  - split; [discriminate|]. intros [= -> _]. pose proof (proj2 (str_cmp_eq s' s') eq_refl). congruence.
Qed.
Lemma val_cmp_antisym x y : val_cmp y x = option_map CompOpp (val_cmp x y).
Proof.
  destruct x as [|n|f v|t bs], y as [|m|g w|u cs]; cbn [val_cmp option_map]; auto.
  - now rewrite Z.compare_antisym.
  - rewrite str_cmp_antisym. destruct (String.compare f g); cbn; auto. now rewrite Z.compare_antisym.
  - destruct (aval_eqb (VGroup t bs) (VGroup u cs)) eqn:E.
    + apply aval_eqb_eq in E. rewrite E. now rewrite (proj2 (aval_eqb_eq _ _) eq_refl).
    + destruct (aval_eqb (VGroup u cs) (VGroup t bs)) eqn:E2; auto. apply aval_eqb_eq in E2. rewrite E2 in E.
      now rewrite (proj2 (aval_eqb_eq _ _) eq_refl) in E.
Qed.
Lemma act_cmp_antisym a b : act_cmp b a = option_map CompOpp (act_cmp a b).
Proof.
  unfold act_cmp. rewrite str_cmp_antisym. destruct (String.compare (fst a) (fst b)); cbn; auto. apply val_cmp_antisym.
Qed.
Lemma val_cmp_lt_trans x y z : val_cmp x y = Some Lt -> val_cmp y z = Some Lt -> val_cmp x z = Some Lt.
Proof.
  destruct x as [|n|f v|t bs], y as [|m|g w|u cs], z as [|k|h q|r ds]; cbn [val_cmp]; try congruence.
  - intros [= H1] [= H2]. f_equal. rewrite Z.compare_lt_iff in *. lia.
  - destruct (String.compare f g) eqn:E1; try discriminate; destruct (String.compare g h) eqn:E2; try discriminate; intros H1 H2.
    + apply str_cmp_eq in E1. apply str_cmp_eq in E2. subst. rewrite (proj2 (str_cmp_eq h h) eq_refl).
      injection H1 as H1. injection H2 as H2. f_equal. rewrite Z.compare_lt_iff in *. lia.
    + apply str_cmp_eq in E1. subst. now rewrite E2.
    + apply str_cmp_eq in E2. subst. now rewrite E1.
    + now rewrite (str_cmp_lt_trans _ _ _ E1 E2).
  - destruct (aval_eqb _ _); discriminate.
Qed.
Lemma act_lt_trans a b c : act_cmp a b = Some Lt -> act_cmp b c = Some Lt -> act_cmp a c = Some Lt.
Proof.
  unfold act_cmp. destruct (String.compare (fst a) (fst b)) eqn:E1; try discriminate;
    destruct (String.compare (fst b) (fst c)) eqn:E2; try discriminate; intros H1 H2.
  - apply str_cmp_eq in E1. apply str_cmp_eq in E2. rewrite E1, E2, (proj2 (str_cmp_eq _ _) eq_refl).
    eapply val_cmp_lt_trans; eauto.
  - apply str_cmp_eq in E1. rewrite E1, E2. auto.
  - apply str_cmp_eq in E2. rewrite <- E2, E1. auto.
  - now rewrite (str_cmp_lt_trans _ _ _ E1 E2).
Qed.
Lemma act_le_refl a : act_le a a.
Proof. right. now apply act_cmp_eq. Qed.
Lemma act_le_trans a b c : act_le a b -> act_le b c -> act_le a c.
Proof.
  intros [H1|H1] [H2|H2]; try (apply act_cmp_eq in H1; subst); try (apply act_cmp_eq in H2; subst);
    unfold act_le; auto using act_le_refl; try (left; eapply act_lt_trans; eassumption).
  right. now apply act_cmp_eq.
Qed.
Lemma act_le_antisym a b : act_le a b -> act_le b a -> a = b.
Proof.
  intros [H1|H1] H2; [|now apply act_cmp_eq]. unfold act_le in H2. rewrite act_cmp_antisym, H1 in H2.
  cbn in H2. destruct H2; discriminate.
Qed.
Lemma act_lt_true x y : act_lt x y = Ok true -> act_le x y.
Proof. unfold act_lt, act_le. destruct (act_cmp x y) as [[]|]; try discriminate; auto. Qed.
Lemma act_lt_false x y : act_lt x y = Ok false -> act_le y x.
Proof.
  unfold act_lt, act_le. rewrite (act_cmp_antisym x y). destruct (act_cmp x y) as [[]|]; try discriminate; cbn; auto.
Qed.

(** ** Sorted lists are determined by their contents *)
Notation ssorted := (StronglySorted act_le).
Lemma ssorted_perm_eq l : forall r, ssorted l -> ssorted r -> Permutation l r -> l = r.
Proof.
  induction l as [|x l IH]; intros r Hl Hr P.
  - apply Permutation_nil in P. now subst.
  - destruct r as [|y r]; [apply Permutation_sym, Permutation_nil in P; discriminate|].
    inversion Hl as [|? ? Hl1 Hl2]; inversion Hr as [|? ? Hr1 Hr2]; subst.
    assert (x = y).
    { assert (Hx : In x (y :: r)) by (rewrite <- P; now left).
      assert (Hy : In y (x :: l)) by (rewrite P; now left).
      destruct Hx as [->|Hx]; auto. destruct Hy as [<-|Hy]; auto.
      rewrite Forall_forall in Hl2, Hr2. apply act_le_antisym; auto. }
    subst. f_equal. apply IH; auto. eapply Permutation_cons_inv; eauto.
Qed.
Lemma ssorted_nth l : ssorted l -> forall i j a b, (i <= j)%nat -> nth_error l i = Some a -> nth_error l j = Some b -> act_le a b.
Proof.
  induction 1 as [|x l Hs IH Hf]; intros i j a b Hij Ha Hb; [destruct i; discriminate|].
  destruct i, j; cbn in *; try lia.
  - replace a with b by congruence. apply act_le_refl.
  - injection Ha as <-. rewrite Forall_forall in Hf. apply Hf. eapply nth_error_In; eauto.
  - apply (IH i j); auto; lia.
Qed.

(** ** bisect.insort *)
Lemma rbind_ok {A B} (r : result A) (f : A -> result B) y : rbind r f = Ok y -> exists x, r = Ok x /\ f x = Ok y.
Proof. destruct r; cbn; eauto. discriminate. Qed.

Lemma div2_bounds lo hi : (lo < hi)%nat -> (lo <= Nat.div2 (lo + hi) < hi)%nat.
Proof. intros H. rewrite Nat.div2_div. split; [apply Nat.div_le_lower_bound; lia|apply Nat.div_lt_upper_bound; lia]. Qed.

Lemma bisect_ok fuel l x : ssorted l -> forall lo hi k, (lo <= hi <= length l)%nat ->
  bisect fuel l x lo hi = Ok k ->
  (forall i y, (i < lo)%nat -> nth_error l i = Some y -> act_le y x) ->
  (forall i y, (hi <= i)%nat -> nth_error l i = Some y -> act_le x y) ->
  (k <= length l)%nat /\ (forall i y, (i < k)%nat -> nth_error l i = Some y -> act_le y x) /\
  (forall i y, (k <= i)%nat -> nth_error l i = Some y -> act_le x y).
Proof.
  intros Hs. induction fuel as [|fuel IH]; intros lo hi k Hb H Hlo Hhi; cbn [bisect] in H; [discriminate|].
  destruct (Nat.ltb_spec lo hi) as [Hlt|Hge].
  - pose proof (div2_bounds lo hi Hlt) as Hm. set (mid := Nat.div2 (lo + hi)) in *.
    destruct (nth_error l mid) as [y|] eqn:Ey; [|discriminate].
    apply rbind_ok in H as (b & Hc & H). destruct b.
    + apply act_lt_true in Hc. apply (IH lo mid k); auto; [lia|].
      intros i z Hi Hz. eapply act_le_trans; [exact Hc|]. eapply (ssorted_nth l Hs mid i); eauto.
    + apply act_lt_false in Hc. apply (IH (S mid) hi k); auto; [lia|].
      intros i z Hi Hz. eapply act_le_trans; [|exact Hc]. eapply (ssorted_nth l Hs i mid); eauto. lia.
  - injection H as <-. replace hi with lo in * by lia. repeat split; auto. lia.
Qed.
Lemma ssorted_app l r : ssorted l -> ssorted r -> (forall a b, In a l -> In b r -> act_le a b) -> ssorted (l ++ r).
Proof.
  induction 1 as [|x l Hs IH Hf]; intros Hr H; cbn; auto. constructor.
  - apply IH; auto. intros a b Ha Hb. apply H; auto. now right.
  - apply Forall_app. split; auto. apply Forall_forall. intros b Hb. apply H; auto. now left.
Qed.
Lemma ssorted_firstn k : forall l, ssorted l -> ssorted (firstn k l).
Proof.
  induction k; intros [|x l] H; cbn; try constructor; inversion H; subst; auto.
  apply Forall_forall. intros y Hy. apply (proj1 (Forall_forall _ _) H3). rewrite <- (firstn_skipn k l). apply in_or_app. now left.
Qed.
Lemma ssorted_skipn k : forall l, ssorted l -> ssorted (skipn k l).
Proof. induction k; intros [|x l] H; cbn; auto; try constructor. inversion H; subst; auto. Qed.
Lemma in_firstn_nth {A} (l : list A) k x : In x (firstn k l) -> exists i, (i < k)%nat /\ nth_error l i = Some x.
Proof.
  revert l. induction k; intros [|y l] H; cbn in *; try contradiction. destruct H as [->|H].
  - exists 0%nat. split; [lia|auto].
  - destruct (IHk _ H) as (i & Hi & Hn). exists (S i). split; [lia|auto].
Qed.
Lemma in_skipn_nth {A} (l : list A) k x : In x (skipn k l) -> exists i, (k <= i)%nat /\ nth_error l i = Some x.
Proof.
  revert l. induction k; intros l H.
  - apply In_nth_error in H as (i & Hi). exists i. split; [lia|auto].
  - destruct l as [|y l]; cbn in H; [destruct H|]. destruct (IHk _ H) as (i & Hi & Hn). exists (S i). split; [lia|auto].
Qed.
Lemma insort_ok l x w : ssorted l -> insort l x = Ok w -> ssorted w /\ Permutation w (l ++ [x]).
Proof.
  intros Hs H. unfold insort in H. apply rbind_ok in H as (k & Hk & H). injection H as <-.
  destruct (bisect_ok _ l x Hs _ _ _ (conj (Nat.le_0_l _) (le_n _)) Hk) as (Hkl & H1 & H2).
  - intros i y Hi. lia.
  - intros i y Hi Hy. exfalso. apply nth_error_None in Hi. congruence.
  - split.
    + apply ssorted_app; [now apply ssorted_firstn| |].
      * constructor; [now apply ssorted_skipn|]. apply Forall_forall. intros y Hy.
        apply in_skipn_nth in Hy as (i & Hi & Hn). eauto.
      * intros a b Ha Hb. apply in_firstn_nth in Ha as (i & Hi & Hn). assert (La : act_le a x) by eauto.
        destruct Hb as [<-|Hb]; auto. apply in_skipn_nth in Hb as (j & Hj & Hnj). eapply act_le_trans; eauto.
    + rewrite <- Permutation_middle. rewrite firstn_skipn. apply Permutation_cons_append.
Qed.

(** ** The dependency relation *)
(** Errors count as dependent: such pairs are never swapped. *)
Definition dpb (a b : action) : bool := match depends a b with Ok false => false | _ => true end.
Lemma dpb_false a b : dpb a b = false <-> depends a b = Ok false.
Proof. unfold dpb. destruct (depends a b) as [[]|]; split; congruence. Qed.
Lemma depends_sym_ok a b v : depends a b = Ok v -> depends b a = Ok v.
Proof.
  unfold depends. destruct (to_type a) as [ta|], (to_type b) as [tb|]; cbn [rbind]; try discriminate.
  destruct (action_dependancies ta) as [da|], (action_dependancies tb) as [db|]; cbn [rbind]; try discriminate.
  rewrite (orb_comm (String.eqb (fst b) "SET_FIELD" && _)), (orb_comm (type_in tb da)). auto.
Qed.
Lemma dpb_sym a b : dpb a b = dpb b a.
Proof.
  apply eq_true_iff_eq. rewrite <- !not_false_iff_true, !dpb_false.
  split; intros H H2; apply H; now apply depends_sym_ok.
Qed.

(** ** The model's levels against the pure ones *)
Notation place := (place dpb).
Notation foata := (foata dpb).
(** the model's levels: level by level a sorted permutation *)
Definition lrel (M : list (list action)) (L : list (list action)) : Prop :=
  Forall2 (fun m v => ssorted m /\ Permutation m v) M L.

Lemma any_dep_ok v i b : any_dep v i = Ok b -> b = hits dpb v i.
Proof.
  revert b. induction v as [|x v IH]; intros b H; cbn [any_dep] in H.
  - injection H as <-. reflexivity.
  - apply rbind_ok in H as (d & Hd & H). apply rbind_ok in H as (r & Hr & H). injection H as <-.
    unfold hits. cbn [existsb]. rewrite (IH _ Hr). unfold hits. f_equal.
    unfold dpb. rewrite Hd. now destruct d.
Qed.
Lemma deepest_ok M i : forall l b k, deepest M i l b = Ok k -> k = deep dpb M i l b.
Proof.
  induction M as [|v M IH]; intros l b k H; cbn [deepest deep] in *; [congruence|].
  apply rbind_ok in H as (d & Hd & H). apply any_dep_ok in Hd. subst d. auto.
Qed.
Lemma lrel_leq M L : lrel M L -> leq M L.
Proof. unfold lrel, leq. induction 1 as [|m v M L [H1 H2] H IH]; constructor; auto. Qed.
Lemma lrel_trans M L L' : lrel M L -> leq L L' -> lrel M L'.
Proof.
  unfold lrel, leq. intros H. revert L'. induction H as [|m v M L [H1 H2] H IH]; intros L' P; inversion P; subst; constructor; auto.
  split; auto. eapply Permutation_trans; eauto.
Qed.
Lemma lrel_eq M M' L L' : lrel M L -> lrel M' L' -> leq L L' -> M = M'.
Proof.
  unfold lrel, leq. intros H. revert M' L'. induction H as [|m v M L [H1 H2] H IH]; intros M' L' H' P; inversion P as [|? v' ? L1 Pv PL]; subst; inversion H' as [|m' ? M1 ? [S1 P1] HM]; subst; auto.
  f_equal; [|eapply IH; eauto]. apply ssorted_perm_eq; auto.
  eapply Permutation_trans; [exact H2|]. eapply Permutation_trans; [exact Pv|]. now apply Permutation_sym.
Qed.
Lemma insert_at_ok M L i : lrel M L -> forall k M', insert_at M k i = Ok M' -> lrel M' (ins L k i).
Proof.
  unfold lrel. induction 1 as [|m v M L [H1 H2] H IH]; intros k M' E; cbn [insert_at ins] in *.
  - injection E as <-. repeat constructor.
  - destruct k; apply rbind_ok in E as (r & Hr & E); injection E as <-.
    + constructor; auto. destruct (insort_ok m i r H1 Hr) as [Hs Hp]. split; auto.
      eapply Permutation_trans; [exact Hp|]. now apply Permutation_app_tail.
    + constructor; auto.
Qed.
Lemma levels_append_ok M L i M' : lrel M L -> levels_append M i = Ok M' -> lrel M' (place L i).
Proof.
  intros H E. unfold levels_append in E. apply rbind_ok in E as (k & Hk & E). apply deepest_ok in Hk.
  unfold Foata.place. rewrite <- (deep_leq dpb M L i (lrel_leq _ _ H)), <- Hk. eapply insert_at_ok; eauto.
Qed.
Lemma rfold_levels xs : forall M L M', lrel M L -> rfold levels_append xs M = Ok M' -> lrel M' (fold_left place xs L).
Proof.
  induction xs as [|x xs IH]; intros M L M' H E; cbn [rfold fold_left] in *; [congruence|].
  apply rbind_ok in E as (M1 & E1 & E). eapply IH; [|exact E]. eapply levels_append_ok; eauto.
Qed.

(** The invariant of every ActionList built by appending. *)
Definition al_ok (l : alist) (xs : list action) : Prop := orig_order l = xs /\ lrel (action_levels l) (foata xs).
Lemma al_empty_ok : al_ok al_empty [].
Proof. split; [reflexivity|constructor]. Qed.
Lemma al_append_ok l xs i l' : al_ok l xs -> al_append l i = Ok l' -> al_ok l' (xs ++ [i]).
Proof.
  intros [H1 H2] E. unfold al_append in E. apply rbind_ok in E as (lv & Hl & E). injection E as <-.
  split; cbn [orig_order action_levels]; [congruence|].
  unfold Foata.foata. rewrite fold_left_app. cbn. eapply levels_append_ok; eauto.
Qed.
Lemma al_extend_ok ys : forall l xs l', al_ok l xs -> al_extend l ys = Ok l' -> al_ok l' (xs ++ ys).
Proof.
  unfold al_extend. induction ys as [|y ys IH]; intros l xs l' H E; cbn [rfold] in E.
  - injection E as <-. now rewrite app_nil_r.
  - apply rbind_ok in E as (l1 & E1 & E). change (y :: ys) with ([y] ++ ys). rewrite app_assoc.
    eapply IH; [|exact E]. eapply al_append_ok; eauto.
Qed.
Lemma al_of_ok xs l : al_of xs = Ok l -> al_ok l xs.
Proof. intros H. apply (al_extend_ok xs al_empty [] l); auto using al_empty_ok. Qed.

Definition act_ind (a b : action) : Prop := depends a b = Ok false.
Notation teq := (trace_eq act_ind).
Lemma teq_dpb xs ys : teq xs ys <-> trace_eq (ind dpb) xs ys.
Proof.
  split; induction 1; try apply te_refl; try (eapply te_trans; eassumption); apply te_swap; now apply dpb_false.
Qed.
Lemma al_ok_iter l xs : al_ok l xs -> teq xs (al_iter l).
Proof.
  intros [_ H]. apply teq_dpb. eapply te_trans; [apply (foata_teq dpb dpb_sym)|]. unfold al_iter.
  apply leq_teq; [apply dpb_sym| |apply (foata_ok dpb)]. apply leq_sym, lrel_leq, H.
Qed.
Lemma al_ok_levels_eq a b xs ys : al_ok a xs -> al_ok b ys -> teq xs ys -> action_levels a = action_levels b.
Proof.
  intros [_ Ha] [_ Hb] H. eapply lrel_eq; eauto. apply (teq_foata dpb dpb_sym). now apply teq_dpb.
Qed.
Lemma act_ind_sym a b : act_ind a b -> act_ind b a.
Proof. apply depends_sym_ok. Qed.
Lemma ateq_sym xs ys : teq xs ys -> teq ys xs.
Proof. rewrite !teq_dpb. apply teq_sym, dpb_sym. Qed.
Lemma ateq_perm xs ys : teq xs ys -> Permutation xs ys.
Proof. rewrite !teq_dpb. apply teq_perm. Qed.
Lemma al_eqb_iff a b xs ys : al_ok a xs -> al_ok b ys -> (al_eqb a b = true <-> teq xs ys).
Proof.
  intros Ha Hb. unfold al_eqb. rewrite andb_true_iff, Nat.eqb_eq.
  destruct (list_eq_dec act_eq_dec (al_iter a) (al_iter b)) as [E|E].
  - split; [|intros _]; [intros _|].
    + eapply te_trans; [apply al_ok_iter, Ha|]. rewrite E. apply ateq_sym, al_ok_iter, Hb.
    + split; auto. destruct (proj1 Ha), (proj1 Hb).
      rewrite (Permutation_length (ateq_perm _ _ (al_ok_iter _ _ Ha))), (Permutation_length (ateq_perm _ _ (al_ok_iter _ _ Hb))).
      now rewrite E.
  - split; [intros [_ H]; discriminate|]. intros H. exfalso. apply E. unfold al_iter. f_equal. eapply al_ok_levels_eq; eauto.
Qed.

(** A dependent pair keeps its order. *)
Lemma teq_project xs ys a b : depends a b = Ok true -> teq xs ys ->
  filter (fun z => act_eqb z a || act_eqb z b) xs = filter (fun z => act_eqb z a || act_eqb z b) ys.
Proof.
  intros Hd. induction 1 as [l|l x y r H|]; [auto| |congruence].
  rewrite !filter_app. f_equal. cbn [filter].
  destruct (act_eqb x a || act_eqb x b) eqn:Ex, (act_eqb y a || act_eqb y b) eqn:Ey; auto.
  rewrite orb_true_iff, !act_eqb_eq in Ex, Ey. unfold act_ind in H.
  destruct Ex as [E1 | E1], Ey as [E2 | E2]; subst; auto; try congruence. apply depends_sym_ok in Hd. congruence.
Qed.

(** ** Totality *)
(** a type the dependency table knows *)
Definition known (a : action) : bool := match (do t <- to_type a; action_dependancies t) with Ok _ => true | _ => false end.
Definition comparable (a b : action) : Prop := act_cmp a b <> None.
Lemma depends_total a b : known a = true -> known b = true -> exists v, depends a b = Ok v.
Proof.
  unfold known, depends. destruct (to_type a) as [ta|]; cbn [rbind]; [|discriminate].
  destruct (action_dependancies ta) as [da|] eqn:Ea; [|discriminate]. intros _.
  destruct (to_type b) as [tb|]; cbn [rbind]; [|discriminate]. cbn [rbind].
  destruct (action_dependancies tb) as [db|]; [|discriminate]. intros _. cbn [rbind].
  destruct (_ || _); eauto.
Qed.
Lemma bisect_total fuel l x : Forall (comparable x) l -> forall lo hi, (lo <= hi <= length l)%nat -> (hi - lo < fuel)%nat ->
  exists k, bisect fuel l x lo hi = Ok k.
Proof.
  intros Hc. induction fuel as [|fuel IH]; intros lo hi Hb Hf; [lia|]. cbn [bisect].
  destruct (Nat.ltb_spec lo hi) as [Hlt|Hge]; [|eauto].
  pose proof (div2_bounds lo hi Hlt) as Hm. set (mid := Nat.div2 (lo + hi)) in *.
  destruct (nth_error l mid) as [y|] eqn:Ey; [|apply nth_error_None in Ey; lia].
  assert (Hy : comparable x y) by (rewrite Forall_forall in Hc; apply Hc; eapply nth_error_In; eauto).
  unfold act_lt. unfold comparable in Hy. destruct (act_cmp x y) as [c|]; [|congruence].
  destruct c; cbn [rbind]; apply IH; lia.
Qed.
Lemma insort_total l x : Forall (comparable x) l -> exists w, insort l x = Ok w.
Proof.
  intros H. unfold insort. destruct (bisect_total (S (length l)) l x H 0 (length l)) as (k & ->); [lia|lia|]. cbn. eauto.
Qed.
Definition compat (x y : action) : Prop := known x = true /\ known y = true /\ comparable x y.
Lemma any_dep_total v i : Forall (compat i) v -> exists b, any_dep v i = Ok b.
Proof.
  induction 1 as [|x v HX H IH]; cbn [any_dep]; eauto.
  destruct HX as (H1 & H2 & H3). destruct (depends_total x i H2 H1) as (d & ->). destruct IH as (r & ->). cbn. eauto.
Qed.
Lemma deepest_total M i : Forall (Forall (compat i)) M -> forall l b, exists k, deepest M i l b = Ok k.
Proof.
  induction 1 as [|v M Hv H IH]; intros l b; cbn [deepest]; eauto.
  destruct (any_dep_total v i Hv) as (d & ->). cbn [rbind]. apply IH.
Qed.
Lemma insert_at_total M i : Forall (Forall (compat i)) M -> forall k, exists M', insert_at M k i = Ok M'.
Proof.
  induction 1 as [|v M Hv H IH]; intros k; cbn [insert_at]; eauto. destruct k.
  - destruct (insort_total v i) as (w & ->); [|cbn; eauto]. eapply Forall_impl; [|exact Hv]. intros a (_ & _ & X). exact X.
  - destruct (IH k) as (M' & ->). cbn. eauto.
Qed.
Lemma levels_append_total M i : Forall (compat i) (concat M) -> exists M', levels_append M i = Ok M'.
Proof.
  intros H. assert (H2 : Forall (Forall (compat i)) M).
  { apply Forall_forall. intros v Hv. apply Forall_forall. intros x Hx. rewrite Forall_forall in H. apply H.
    apply in_concat. eauto. }
  unfold levels_append. destruct (deepest_total M i H2 0 0) as (k & ->). cbn [rbind]. now apply insert_at_total.
Qed.
Lemma lrel_concat M L : lrel M L -> Permutation (concat M) (concat L).
Proof. unfold lrel. induction 1 as [|m v M L [_ P] H IH]; cbn; auto. now apply Permutation_app. Qed.
Lemma foata_perm xs : Permutation xs (concat (foata xs)).
Proof. eapply teq_perm, foata_teq, dpb_sym. Qed.
Lemma al_append_total l xs i : al_ok l xs -> Forall (compat i) xs -> exists l', al_append l i = Ok l'.
Proof.
  intros [H1 H2] H. destruct (levels_append_total (action_levels l) i) as (lv & E).
  - assert (P : Permutation xs (concat (action_levels l))).
    { rewrite (lrel_concat _ _ H2). apply foata_perm. }
    now rewrite <- P.
  - unfold al_append. rewrite E. cbn. eauto.
Qed.
Lemma al_extend_total ys : forall l xs, al_ok l xs ->
  (forall a b, In a ys -> In b (xs ++ ys) -> compat a b) -> exists l', al_extend l ys = Ok l'.
Proof.
  unfold al_extend. induction ys as [|y ys IH]; intros l xs H Hc; cbn [rfold]; eauto.
  destruct (al_append_total l xs y H) as (l1 & E).
  { apply Forall_forall. intros x Hx. apply Hc; [now left|]. apply in_or_app. now left. }
  rewrite E. cbn [rbind]. apply (IH l1 (xs ++ [y])); [eapply al_append_ok; eauto|].
  intros a b Ha Hb. apply Hc; [now right|]. now rewrite <- app_assoc in Hb.
Qed.
Lemma al_of_total xs : (forall a b, In a xs -> In b xs -> compat a b) -> exists l, al_of xs = Ok l.
Proof. intros H. apply (al_extend_total xs al_empty []); auto using al_empty_ok. Qed.

(** Success only depends on the trace. *)
Lemma ssorted_comparable l : ssorted l -> ForallPairs comparable l.
Proof.
  intros Hs a b Ha Hb. apply In_nth_error in Ha as (i & Hi). apply In_nth_error in Hb as (j & Hj).
  assert (act_le a b \/ act_le b a) as [[H|H]|[H|H]].
  { destruct (Nat.le_ge_cases i j); [left; eapply (ssorted_nth l Hs i j)|right; eapply (ssorted_nth l Hs j i)]; eauto. }
  - unfold comparable. congruence.
  - unfold comparable. congruence.
  - unfold comparable. rewrite act_cmp_antisym, H. discriminate.
  - unfold comparable. rewrite act_cmp_antisym, H. discriminate.
Qed.
Lemma comparable_perm l r : Permutation l r -> ForallPairs comparable l -> ForallPairs comparable r.
Proof. intros P H a b Ha Hb. apply H; now rewrite P. Qed.
Definition lev_comparable (L : list (list action)) : Prop := Forall (ForallPairs comparable) L.
Lemma lev_comparable_leq L M : leq L M -> lev_comparable L -> lev_comparable M.
Proof.
  unfold leq, lev_comparable. induction 1; intros H1; auto. inversion H1; subst. constructor; auto.
  eapply comparable_perm; eauto.
Qed.
Lemma lrel_comparable M L : lrel M L -> lev_comparable L.
Proof.
  unfold lrel, lev_comparable. induction 1 as [|m v M L [H1 H2] H IH]; constructor; auto.
  eapply comparable_perm; [exact H2|]. now apply ssorted_comparable.
Qed.
Lemma lev_comparable_ins L k i : lev_comparable (ins L k i) -> lev_comparable L.
Proof.
  unfold lev_comparable. revert k. induction L as [|v L IH]; intros k H; cbn [ins] in H; [constructor|].
  destruct k; inversion H; subst; constructor; eauto.
  intros a b Ha Hb. apply H2; apply in_or_app; now left.
Qed.
Lemma insert_at_total2 M L i : lrel M L -> forall k, lev_comparable (ins L k i) -> exists M', insert_at M k i = Ok M'.
Proof.
  unfold lrel, lev_comparable. induction 1 as [|m v M L [H1 H2] H IH]; intros k Hc; cbn [insert_at ins] in *; eauto.
  destruct k; inversion Hc as [|? ? C1 C2]; subst.
  - destruct (insort_total m i) as (w & ->); [|cbn; eauto]. apply Forall_forall. intros x Hx.
    apply C1; [apply in_or_app; right; now left|]. apply in_or_app. left. now rewrite <- H2.
  - destruct (IH k C2) as (M' & ->). cbn. eauto.
Qed.
Lemma any_dep_total2 v i : known i = true -> Forall (fun x => known x = true) v -> exists b, any_dep v i = Ok b.
Proof.
  intros Hi. induction 1 as [|x v H1 H IH]; cbn [any_dep]; eauto.
  destruct (depends_total x i H1 Hi) as (d & ->). destruct IH as (r & ->). cbn. eauto.
Qed.
Lemma deepest_total2 M i : known i = true -> Forall (fun x => known x = true) (concat M) -> forall l b, exists k, deepest M i l b = Ok k.
Proof.
  intros Hi. induction M as [|v M IH]; intros H l b; cbn [deepest concat] in *; eauto. apply Forall_app in H as [H1 H2].
  destruct (any_dep_total2 v i Hi H1) as (d & ->). cbn [rbind]. auto.
Qed.
Lemma depends_known a b v : depends a b = Ok v -> known a = true /\ known b = true.
Proof.
  unfold depends, known. destruct (to_type a) as [ta|], (to_type b) as [tb|]; cbn [rbind]; try discriminate.
  destruct (action_dependancies ta) as [da|], (action_dependancies tb) as [db|]; cbn [rbind]; try discriminate. auto.
Qed.
Lemma any_dep_known v i b : any_dep v i = Ok b -> Forall (fun x => known x = true /\ known i = true) v.
Proof.
  revert b. induction v as [|x v IH]; intros b H; cbn [any_dep] in H; [constructor|].
  apply rbind_ok in H as (d & Hd & H). apply rbind_ok in H as (r & Hr & H). constructor; eauto using depends_known.
Qed.
Lemma deepest_known M i : forall l b k, deepest M i l b = Ok k -> Forall (fun x => known x = true /\ known i = true) (concat M).
Proof.
  induction M as [|v M IH]; intros l b k H; cbn [deepest concat] in *; [constructor|].
  apply rbind_ok in H as (d & Hd & H). apply Forall_app. split; [eapply any_dep_known|eapply IH]; eauto.
Qed.
Definition all_known (xs : list action) : Prop := (length xs <= 1)%nat \/ Forall (fun x => known x = true) xs.
Lemma al_of_snoc xs x : al_of (xs ++ [x]) = do l <- al_of xs; al_append l x.
Proof.
  unfold al_of, al_extend. generalize al_empty. induction xs as [|y xs IH]; intros l; cbn [rfold app rbind].
  - destruct (al_append l x); reflexivity.
  - destruct (al_append l y); cbn [rbind]; auto.
Qed.
Lemma foata_snoc xs x : foata (xs ++ [x]) = place (foata xs) x.
Proof. unfold Foata.foata. now rewrite fold_left_app. Qed.
(** Building an ActionList succeeds iff the table knows every type (a lone action is not looked
    up) and the actions that end up on one level are comparable. *)
Lemma al_of_success xs : (exists l, al_of xs = Ok l) <-> all_known xs /\ lev_comparable (foata xs).
Proof.
  split.
  - intros (l & H). pose proof (al_of_ok _ _ H) as [_ R]. split; [|eapply lrel_comparable; eauto].
    clear R. revert l H. induction xs as [|x xs IH] using rev_ind; intros l H; [left; cbn; lia|].
    rewrite al_of_snoc in H. apply rbind_ok in H as (l1 & E1 & H). pose proof (al_of_ok _ _ E1) as [_ R].
    unfold al_append in H. apply rbind_ok in H as (lv & E2 & H).
    unfold levels_append in E2. apply rbind_ok in E2 as (k & E2 & _). apply deepest_known in E2.
    rewrite (lrel_concat _ _ R), <- foata_perm in E2. destruct xs as [|y xs]; [left; cbn; lia|].
    right. apply Forall_app. inversion E2 as [|? ? [Ky Kx] Kr]; subst. split; [|auto].
    eapply Forall_impl; [|exact E2]. intros a [Ka _]. exact Ka.
  - induction xs as [|x xs IH] using rev_ind; intros [Hk Hc]; [exists al_empty; reflexivity|].
    rewrite foata_snoc in Hc. destruct IH as (l & E).
    + split; [|eapply lev_comparable_ins; exact Hc]. destruct Hk as [Hk|Hk]; [left; rewrite app_length in Hk; cbn in Hk; lia|].
      right. now apply Forall_app in Hk.
    + rewrite al_of_snoc, E. cbn [rbind]. pose proof (al_of_ok _ _ E) as [_ R].
      unfold al_append, levels_append.
      assert (exists k, deepest (action_levels l) x 0 0 = Ok k) as (k & Ek).
      { destruct Hk as [Hk|Hk].
        - rewrite app_length in Hk. cbn in Hk. assert (xs = []) by (destruct xs; auto; cbn in Hk; lia). subst. cbv in E. injection E as <-. cbn. eauto.
        - apply Forall_app in Hk as [K1 K2]. inversion K2; subst. apply deepest_total2; auto.
          now rewrite (lrel_concat _ _ R), <- foata_perm. }
      rewrite Ek. apply deepest_ok in Ek. rewrite (deep_leq dpb _ _ x (lrel_leq _ _ R)) in Ek.
      cbn [rbind]. destruct (insert_at_total2 _ _ x R k) as (M' & ->); [|cbn; eauto]. subst k. exact Hc.
Qed.
Lemma al_of_teq xs ys l : al_of xs = Ok l -> teq xs ys -> exists l', al_of ys = Ok l' /\ action_levels l' = action_levels l.
Proof.
  intros H T. assert (Hs : exists l, al_of xs = Ok l) by eauto. apply al_of_success in Hs as [Hk Hc].
  assert (P := ateq_perm _ _ T).
  destruct (proj2 (al_of_success ys)) as (l' & E).
  - split.
    + destruct Hk as [Hk|Hk]; [left; now rewrite <- (Permutation_length P)|right; now rewrite <- P].
    + eapply lev_comparable_leq; [|exact Hc]. apply (teq_foata dpb dpb_sym). now apply teq_dpb.
  - exists l'. split; auto. symmetry. eapply al_ok_levels_eq; [apply al_of_ok, H|apply al_of_ok, E|exact T].
Qed.
