(** Foata normal forms: levels of pairwise independent elements, each placed just after the
    deepest level holding something it depends on. *)
From Verif Require Export SpecAction.

Section Foata.
  Context {A : Type} (dp : A -> A -> bool) (dp_sym : forall a b, dp a b = dp b a).
  Definition ind (a b : A) : Prop := dp a b = false.
  Notation teq := (trace_eq ind).

  Lemma ind_sym a b : ind a b -> ind b a.
  Proof. unfold ind. now rewrite dp_sym. Qed.
  Lemma teq_sym l r : teq l r -> teq r l.
  Proof. induction 1; [apply te_refl|apply te_swap; now apply ind_sym|eapply te_trans; eauto]. Qed.
  Lemma teq_perm l r : teq l r -> Permutation l r.
  Proof. induction 1; [apply Permutation_refl|apply Permutation_app_head, perm_swap|eapply Permutation_trans; eauto]. Qed.
  Lemma teq_head p l r : teq l r -> teq (p ++ l) (p ++ r).
  Proof. induction 1; [apply te_refl|rewrite !app_assoc; now apply te_swap|eapply te_trans; eauto]. Qed.
  Lemma teq_tail q l r : teq l r -> teq (l ++ q) (r ++ q).
  Proof. induction 1; [apply te_refl|rewrite <- !app_assoc; cbn; now apply te_swap|eapply te_trans; eauto]. Qed.
  Lemma teq_app l l' r r' : teq l l' -> teq r r' -> teq (l ++ r) (l' ++ r').
  Proof. intros H1 H2. eapply te_trans; [apply teq_tail, H1|apply teq_head, H2]. Qed.
  Lemma teq_move x l : Forall (ind x) l -> teq (x :: l) (l ++ [x]).
  Proof.
    induction l as [|y l IH]; intros H; cbn; [apply te_refl|]. inversion H; subst.
    eapply te_trans; [apply (te_swap _ []); eassumption|]. cbn. apply (teq_head [y]). auto.
  Qed.
  Lemma perm_fop l r : Permutation l r -> ForallOrdPairs ind l -> ForallOrdPairs ind r.
  Proof.
    intros P1 H. induction P1 as [|x l l' P IH|x y l|l l' l'' P1 IH1 P2 IH2]; auto.
    - inversion H as [|? ? Hx Hl]; subst. constructor; [now rewrite <- P|auto].
    - inversion H as [|? ? H1 H2]; inversion H1; inversion H2; subst.
      constructor; [constructor; [now apply ind_sym|auto]|constructor; auto].
  Qed.
  Lemma teq_perm_ind l r : Permutation l r -> ForallOrdPairs ind l -> teq l r.
  Proof.
    induction 1 as [|x l l' P IH|x y l|l l' l'' P1 IH1 P2 IH2]; intros H.
    - apply te_refl.
    - inversion H; subst. apply (teq_head [x]); auto.
    - inversion H as [|? ? H1]; inversion H1; subst. apply (te_swap _ []). auto.
    - eapply te_trans; [apply IH1, H|]. apply IH2. eapply perm_fop; eauto.
  Qed.

  (** ** Levels *)
  Definition hits (v : list A) (i : A) : bool := existsb (fun x => dp x i) v.
  Fixpoint deep (L : list (list A)) (i : A) (l best : nat) : nat :=
    match L with [] => best | v :: t => deep t i (S l) (if hits v i then S l else best) end.
  Fixpoint ins (L : list (list A)) (k : nat) (i : A) : list (list A) :=
    match L, k with
    | [], _ => [[i]]
    | v :: t, O => (v ++ [i]) :: t
    | v :: t, S k' => v :: ins t k' i
    end.
  Definition place (L : list (list A)) (i : A) : list (list A) := ins L (deep L i 0 0) i.
  Definition foata (xs : list A) : list (list A) := fold_left place xs [].
  Definition leq (L M : list (list A)) : Prop := Forall2 (@Permutation A) L M.

  Lemma leq_refl L : leq L L.
  Proof. induction L; constructor; auto. Qed.
  Lemma leq_trans L M N : leq L M -> leq M N -> leq L N.
  Proof.
    intros H. revert N. induction H; intros N H2; inversion H2; subst; constructor; auto.
    - eapply Permutation_trans; eauto.
    - apply IHForall2; auto.
  Qed.
  Lemma leq_sym L M : leq L M -> leq M L.
  Proof. induction 1; constructor; auto using Permutation_sym. Qed.
  Lemma hits_perm v w i : Permutation v w -> hits v i = hits w i.
  Proof.
    intros P. apply eq_true_iff_eq. unfold hits. rewrite !existsb_exists.
    split; intros (x & Hx & Hd); exists x; split; auto; [now rewrite <- P|now rewrite P].
  Qed.
  Lemma deep_leq L M i : leq L M -> forall l b, deep L i l b = deep M i l b.
  Proof. induction 1 as [|v w L M P H IH]; intros l b; cbn; auto. rewrite (hits_perm v w i P). apply IH. Qed.
  Lemma ins_leq L M i : leq L M -> forall k, leq (ins L k i) (ins M k i).
  Proof.
    induction 1 as [|v w L M P H IH]; intros k; cbn; [apply leq_refl|].
    destruct k; constructor; auto; [now apply Permutation_app_tail|apply IH].
  Qed.
  Lemma place_leq L M i : leq L M -> leq (place L i) (place M i).
  Proof. intros H. unfold place. rewrite (deep_leq L M i H). now apply ins_leq. Qed.
  Lemma fold_place_leq xs : forall L M, leq L M -> leq (fold_left place xs L) (fold_left place xs M).
  Proof. induction xs; intros L M H; cbn; auto. apply IHxs, place_leq, H. Qed.

  Lemma deep_le L i : forall l b, (b <= l)%nat -> (b <= deep L i l b <= l + length L)%nat.
  Proof.
    induction L as [|v L IH]; intros l b H; cbn [deep length]; [lia|].
    specialize (IH (S l) (if hits v i then S l else b)). destruct (hits v i); lia.
  Qed.
  (** an independent element does not move the target *)
  Lemma deep_ins L a b : dp a b = false -> forall k l x, (k <= length L)%nat -> deep (ins L k a) b l x = deep L b l x.
  Proof.
    intros H. induction L as [|v L IH]; intros k l x Hk; cbn [ins deep length] in *.
    - unfold hits. cbn [existsb]. now rewrite H.
    - destruct k; cbn [deep].
      + unfold hits. rewrite existsb_app. cbn [existsb]. now rewrite H, !orb_false_r.
      + apply IH. lia.
  Qed.
  Lemma ins_swap L a b : forall j k, (j <= length L)%nat -> (k <= length L)%nat -> leq (ins (ins L j a) k b) (ins (ins L k b) j a).
  Proof.
    induction L as [|v L IH]; intros j k Hj Hk; cbn [length] in *.
    - assert (j = 0)%nat by lia. assert (k = 0)%nat by lia. subst. cbn. constructor; [apply perm_swap|constructor].
    - destruct j, k; cbn [ins].
      + constructor; [|apply leq_refl]. rewrite <- !app_assoc. apply Permutation_app_head, perm_swap.
      + apply leq_refl.
      + apply leq_refl.
      + constructor; [auto|apply IH; lia].
  Qed.
  Lemma place_swap L a b : dp a b = false -> leq (place (place L a) b) (place (place L b) a).
  Proof.
    intros H. unfold place. pose proof (deep_le L a 0 0). pose proof (deep_le L b 0 0).
    rewrite (deep_ins L a b) by (auto; lia). rewrite (deep_ins L b a) by (try rewrite dp_sym; auto; lia).
    apply ins_swap; lia.
  Qed.
  Lemma teq_foata xs ys : teq xs ys -> leq (foata xs) (foata ys).
  Proof.
    unfold foata. induction 1 as [l|l a b r H|]; [apply leq_refl| |eapply leq_trans; eauto].
    rewrite !fold_left_app. cbn. apply fold_place_leq, place_swap, H.
  Qed.

  (** ** The levels linearise to the trace *)
  (** Elements of one level are pairwise independent. *)
  Definition lev_ok (L : list (list A)) : Prop := Forall (ForallOrdPairs ind) L.
  Definition free_from (L : list (list A)) (k : nat) (i : A) : Prop :=
    forall v, In v (skipn k L) -> Forall (fun x => ind x i) v.
  Lemma not_hits v i : hits v i = false -> Forall (fun x => ind x i) v.
  Proof.
    intros H. apply Forall_forall. intros x Hx. destruct (dp x i) eqn:E; [|exact E].
    exfalso. assert (hits v i = true) by (apply existsb_exists; eauto). congruence.
  Qed.
  Lemma deep_free L i : forall l b, (b <= l)%nat -> free_from L (deep L i l b - l) i.
  Proof.
    induction L as [|v L IH]; intros l b Hb; cbn [deep].
    - intros w Hw. rewrite skipn_nil in Hw. destruct Hw.
    - pose proof (deep_le L i (S l) (if hits v i then S l else b)) as D.
      specialize (IH (S l) (if hits v i then S l else b)).
      set (d := deep L i (S l) (if hits v i then S l else b)) in *.
      intros w Hw. destruct (hits v i) eqn:E.
      + assert (exists m, d - l = S m /\ m = d - S l)%nat as (m & Hm & Hm2) by (exists (d - S l)%nat; lia).
        rewrite Hm in Hw. cbn [skipn] in Hw. apply IH; [lia|]. now rewrite <- Hm2.
      + destruct (d - l)%nat as [|m] eqn:Em; cbn [skipn] in Hw.
        * destruct Hw as [<-|Hw]; [now apply not_hits|]. apply IH; [lia|]. now replace (d - S l)%nat with 0%nat by lia.
        * apply IH; [lia|]. now replace (d - S l)%nat with m by lia.
  Qed.
  Lemma place_free L i : free_from L (deep L i 0 0) i.
  Proof. pose proof (deep_free L i 0 0 (le_n 0)). now rewrite Nat.sub_0_r in H. Qed.
  Lemma fop_snoc (v : list A) i : ForallOrdPairs ind v -> Forall (fun x => ind x i) v -> ForallOrdPairs ind (v ++ [i]).
  Proof.
    induction 1; intros Hf; cbn; [constructor; [constructor|constructor]|]. inversion Hf; subst.
    constructor; [|auto]. apply Forall_app. split; auto.
  Qed.
  Lemma ins_ok L i : lev_ok L -> forall k, free_from L k i -> lev_ok (ins L k i).
  Proof.
    induction 1 as [|v L Hv HL IH]; intros k Hf; cbn [ins].
    - repeat constructor.
    - destruct k; constructor; auto.
      + apply fop_snoc; auto. apply Hf. now left.
      + apply IH. intros w Hw. apply Hf. exact Hw.
  Qed.
  Lemma place_ok L i : lev_ok L -> lev_ok (place L i).
  Proof. intros H. apply ins_ok; auto. apply place_free. Qed.
  Lemma fold_place_ok xs : forall L, lev_ok L -> lev_ok (fold_left place xs L).
  Proof. induction xs; intros L H; cbn; auto using place_ok. Qed.
  Lemma foata_ok xs : lev_ok (foata xs).
  Proof. apply fold_place_ok. constructor. Qed.

  Lemma ins_teq L i : forall k, free_from L k i -> teq (concat L ++ [i]) (concat (ins L k i)).
  Proof.
    induction L as [|v L IH]; intros k Hf; cbn [ins concat app].
    - apply te_refl.
    - destruct k; cbn [concat].
      + rewrite <- !app_assoc. apply teq_head. apply teq_sym.
        apply teq_move. apply Forall_forall. intros x Hx. apply in_concat in Hx. destruct Hx as (w & Hw & Hxw).
        apply ind_sym. assert (F : Forall (fun x => ind x i) w) by (apply Hf; now right).
        rewrite Forall_forall in F. auto.
      + rewrite <- app_assoc. apply teq_head, IH. intros w Hw. apply Hf. exact Hw.
  Qed.
  Lemma place_teq L i : teq (concat L ++ [i]) (concat (place L i)).
  Proof. apply ins_teq, place_free. Qed.
  Lemma fold_place_teq xs : forall L, teq (concat L ++ xs) (concat (fold_left place xs L)).
  Proof.
    induction xs as [|x xs IH]; intros L; cbn [fold_left]; [rewrite app_nil_r; apply te_refl|].
    eapply te_trans; [|apply IH]. change (x :: xs) with ([x] ++ xs). rewrite app_assoc. apply teq_tail, place_teq.
  Qed.
  Lemma foata_teq xs : teq xs (concat (foata xs)).
  Proof. apply (fold_place_teq xs []). Qed.
  Lemma leq_teq L M : leq L M -> lev_ok L -> teq (concat L) (concat M).
  Proof.
    induction 1 as [|v w L M P H IH]; intros Ho; cbn; [apply te_refl|]. inversion Ho; subst.
    apply teq_app; auto. now apply teq_perm_ind.
  Qed.
  Lemma foata_iff xs ys : leq (foata xs) (foata ys) <-> teq xs ys.
  Proof.
    split; [|apply teq_foata]. intros H. eapply te_trans; [apply foata_teq|].
    eapply te_trans; [apply leq_teq; [exact H|apply foata_ok]|]. apply teq_sym, foata_teq.
  Qed.
  (** Placing the linearisation again gives the same levels. *)
  Lemma foata_concat xs : leq (foata (concat (foata xs))) (foata xs).
  Proof. apply leq_sym, teq_foata, foata_teq. Qed.

End Foata.

(** ** Foata normal forms are rebuilt level by level *)
Section Nf.
  Context {A : Type} (dp : A -> A -> bool).
  Fixpoint nfp (prev : option (list A)) (L : list (list A)) : Prop :=
    match L with
    | [] => True
    | w :: t => w <> [] /\ ForallOrdPairs (ind dp) w /\
                (match prev with None => True | Some v => Forall (fun x => hits dp v x = true) w end) /\ nfp (Some w) t
    end.
  Lemma hits_perm2 v w i : Permutation v w -> hits dp v i = hits dp w i.
  Proof. apply hits_perm. Qed.
  Lemma nfp_hits_app v i prev : forall L, nfp (Some v) L -> prev = Some (v ++ [i]) -> nfp prev L.
  Proof.
    intros [|w L] H ->; auto. destruct H as (H1 & H2 & H3 & H4). repeat split; auto.
    eapply Forall_impl; [|exact H3]. cbn. intros a Ha. unfold hits in *. now rewrite existsb_app, Ha.
  Qed.
  Lemma nfp_ins i L : forall prev k, nfp prev L -> (k <= length L)%nat -> free_from dp L k i ->
    (match k with O => match prev with None => True | Some v => hits dp v i = true end
     | S k' => match nth_error L k' with Some v => hits dp v i = true | None => False end end) ->
    nfp prev (ins L k i).
  Proof.
    induction L as [|v L IH]; intros prev k H Hk Hf Hh; cbn [Foata.ins].
    - cbn [length] in Hk. assert (k = 0)%nat by lia. subst. repeat split; auto; try discriminate.
      + repeat constructor.
      + destruct prev; auto.
    - destruct H as (H1 & H2 & H3 & H4). destruct k; cbn [Foata.ins nfp].
      + assert (F : Forall (fun x => ind dp x i) v) by (apply Hf; now left).
        split; [destruct v; discriminate|]. split; [now apply fop_snoc|]. split.
        * destruct prev; auto. apply Forall_app. split; auto.
        * eapply nfp_hits_app; eauto.
      + repeat split; auto. apply IH; auto; [cbn in Hk; lia|].
        destruct k; cbn [nth_error] in Hh; auto.
  Qed.
  Lemma deep_hit L i : forall l b, (b <= l)%nat -> let d := deep dp L i l b in
    d = b \/ ((l < d)%nat /\ match nth_error L (d - l - 1) with Some v => hits dp v i = true | None => False end).
  Proof.
    induction L as [|v L IH]; intros l b Hb; cbn [deep]; auto.
    assert (Hb' : ((if hits dp v i then S l else b) <= S l)%nat) by (destruct (hits dp v i); lia).
    specialize (IH (S l) _ Hb'). set (d := deep dp L i (S l) (if hits dp v i then S l else b)) in *. cbv zeta in *.
    destruct IH as [E|[H1 H2]].
    - destruct (hits dp v i) eqn:Eh; [|auto]. right. rewrite E. split; [lia|]. replace (S l - l - 1)%nat with 0%nat by lia. cbn. exact Eh.
    - right. split; [lia|]. replace (d - l - 1)%nat with (S (d - S l - 1)) by lia. exact H2.
  Qed.
  Lemma nfp_place L i : nfp None L -> nfp None (place dp L i).
  Proof.
    intros H. unfold place. pose proof (deep_le dp L i 0 0 (le_n 0)). apply nfp_ins; auto; [lia|apply place_free|].
    pose proof (deep_hit L i 0 0 (le_n 0)) as [E|[H1 H2]].
    - rewrite E. auto.
    - destruct (deep dp L i 0 0) as [|k] eqn:Ek; [lia|]. replace (S k - 0 - 1)%nat with k in H2 by lia. exact H2.
  Qed.
  Lemma nfp_foata xs : nfp None (foata dp xs).
  Proof.
    unfold foata. assert (G : forall L, nfp None L -> nfp None (fold_left (place dp) xs L)).
    { induction xs as [|x xs IH]; intros L H; cbn; auto. apply IH, nfp_place, H. }
    apply G. exact Logic.I.
  Qed.
  Lemma deep_app L M i : forall l b, deep dp (L ++ M) i l b = deep dp M i (l + length L) (deep dp L i l b).
  Proof.
    induction L as [|v L IH]; intros l b; cbn [app deep length]; [now rewrite Nat.add_0_r|].
    rewrite IH. now replace (S l + length L)%nat with (l + S (length L))%nat by lia.
  Qed.
  Lemma ins_end (L : list (list A)) x : ins L (length L) x = L ++ [[x]].
  Proof. induction L; cbn; congruence. Qed.
  Lemma ins_last (L : list (list A)) w x : ins (L ++ [w]) (length L) x = L ++ [w ++ [x]].
  Proof. induction L; cbn; congruence. Qed.
  (** the last level of L1 hits every element of w *)
  Definition last_hits (L : list (list A)) (w : list A) : Prop :=
    match rev L with [] => True | v :: _ => Forall (fun x => hits dp v x = true) w end.
  Lemma deep_last L x : last_hits L [x] -> deep dp L x 0 0 = length L.
  Proof.
    unfold last_hits. destruct (rev L) as [|v R] eqn:E.
    - assert (L = []) by (rewrite <- (rev_involutive L), E; reflexivity). subst. reflexivity.
    - intros H. assert (L = rev R ++ [v]) by (rewrite <- (rev_involutive L), E; reflexivity). subst.
      rewrite deep_app. cbn [deep]. inversion H; subst. rewrite H2. rewrite app_length. cbn. lia.
  Qed.
  Lemma fold_level w : forall L u, u <> [] -> ForallOrdPairs (ind dp) (u ++ w) -> last_hits L w ->
    fold_left (place dp) w (L ++ [u]) = L ++ [u ++ w].
  Proof.
    induction w as [|x w IH]; intros L u Hu Hi Hl; cbn [fold_left]; [now rewrite app_nil_r|].
    assert (Hd : place dp (L ++ [u]) x = L ++ [u ++ [x]]).
    { unfold place. rewrite deep_app. cbn [deep]. rewrite deep_last.
      - assert (hits dp u x = false).
        { unfold hits. destruct (existsb (fun y => dp y x) u) eqn:E; auto. apply existsb_exists in E as (y & Hy & E).
          exfalso. clear - Hi Hy E. induction u as [|z u IHu]; [destruct Hy|]. inversion Hi; subst. destruct Hy as [->|Hy]; auto.
          rewrite Forall_forall in H1. specialize (H1 x (in_elt x u w)). unfold ind in H1. congruence. }
        rewrite H. apply ins_last.
      - unfold last_hits in *. destruct (rev L); auto. inversion Hl; subst. auto. }
    rewrite Hd, IH.
    - now rewrite <- app_assoc.
    - destruct u; discriminate.
    - now rewrite <- app_assoc.
    - unfold last_hits in *. destruct (rev L); auto. inversion Hl; subst. auto.
  Qed.
  Lemma fold_levels M : forall L prev, nfp prev M ->
    match prev with None => L = [] | Some v => exists R, L = R ++ [v] end ->
    fold_left (place dp) (concat M) L = L ++ M.
  Proof.
    induction M as [|w M IH]; intros L prev H Hp; cbn [concat]; [cbn; now rewrite app_nil_r|].
    destruct H as (H1 & H2 & H3 & H4). rewrite fold_left_app.
    assert (Hl : last_hits L w).
    { unfold last_hits. destruct prev as [v|]; [destruct Hp as (R & ->); now rewrite rev_app_distr|subst; exact Logic.I]. }
    destruct w as [|x w]; [congruence|]. cbn [fold_left].
    assert (E : place dp L x = L ++ [[x]]).
    { unfold place. rewrite deep_last; [apply ins_end|]. unfold last_hits in *. destruct (rev L); auto. inversion Hl; subst. auto. }
    rewrite E, fold_level; auto; try discriminate.
    - rewrite (IH _ (Some (x :: w)) H4); [now rewrite <- app_assoc|]. eauto.
    - unfold last_hits in *. destruct (rev L); auto. inversion Hl; subst. auto.
  Qed.
  Lemma foata_rebuild M : nfp None M -> foata dp (concat M) = M.
  Proof. intros H. unfold foata. now rewrite (fold_levels M [] None H). Qed.
  Lemma nfp_firstn M : forall prev k, nfp prev M -> nfp prev (firstn k M).
  Proof.
    induction M as [|w M IH]; intros prev [|k] H; cbn; auto. destruct H as (H1 & H2 & H3 & H4). auto.
  Qed.
  Lemma nfp_leq L M : leq L M -> forall p q, (match p, q with Some v, Some w => Permutation v w | None, None => True | _, _ => False end) ->
    (forall a b, dp a b = dp b a) -> nfp p L -> nfp q M.
  Proof.
    unfold leq. induction 1 as [|v w L M P H IH]; intros p q Hpq Hs Hn; auto. destruct Hn as (H1 & H2 & H3 & H4).
    split; [|split; [|split]].
    - intros ->. apply H1. now apply Permutation_sym, Permutation_nil in P.
    - eapply perm_fop; eauto.
    - destruct p as [x|], q as [y|]; try contradiction; auto. rewrite <- P. eapply Forall_impl; [|exact H3].
      cbn. intros a Ha. now rewrite <- (hits_perm2 x y a Hpq).
    - apply (IH (Some v) (Some w)); auto.
  Qed.
End Nf.

(** renaming actions by a map that keeps dependencies keeps the shape *)
Section Rename.
  Context {A : Type} (dp : A -> A -> bool) (g : A -> A).
  Lemma ins_map (L : list (list A)) : forall k i, ins (map (map g) L) k (g i) = map (map g) (ins L k i).
  Proof.
    induction L as [|v L IH]; intros [|k] i; cbn; auto; [now rewrite map_app|now rewrite IH].
  Qed.
  Lemma deep_map L i : (forall x, In x (concat L) -> dp (g x) (g i) = dp x i) ->
    forall l b, deep dp (map (map g) L) (g i) l b = deep dp L i l b.
  Proof.
    induction L as [|v L IH]; intros H l b; cbn [map deep]; auto. rewrite IH by (intros; apply H; cbn; rewrite in_app_iff; auto).
    replace (hits dp (map g v) (g i)) with (hits dp v i); auto. unfold hits.
    assert (Hv : forall x, In x v -> dp (g x) (g i) = dp x i) by (intros; apply H; cbn; rewrite in_app_iff; auto).
    clear - Hv. induction v as [|x v IH]; cbn; auto. rewrite Hv by now left. rewrite IH; auto. intros; apply Hv; now right.
  Qed.
  Lemma foata_map (dp_sym : forall a b, dp a b = dp b a) xs :
    (forall x y, In x xs -> In y xs -> dp (g x) (g y) = dp x y) -> foata dp (map g xs) = map (map g) (foata dp xs).
  Proof.
    induction xs as [|x xs IH] using rev_ind; intros H; auto.
    unfold foata in *. rewrite map_app, !fold_left_app. cbn [map fold_left]. rewrite IH by (intros; apply H; apply in_app_iff; auto).
    unfold place. rewrite deep_map; [apply ins_map|]. intros y Hy. apply H; [|apply in_app_iff; right; now left].
    apply in_app_iff; left. eapply Permutation_in; [|exact Hy]. apply Permutation_sym. eapply teq_perm. apply (foata_teq dp dp_sym).
  Qed.
End Rename.
