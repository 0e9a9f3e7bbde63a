(** Proofs about merge_rules, normalise and check_equal of the headerspace normaliser. *)
From Coq Require Import Permutation ZifyBool ZifyNat.
From Verif Require Import Hspace SpecHspace Spec WildcardProofs TreeProofs HspaceProofs.
Local Open Scope list_scope.
Local Open Scope Z_scope.
Local Opaque NB.

Lemma Forall2_nth_l {A B} (P : A -> B -> Prop) l m : Forall2 P l m -> forall n x, nth_error l n = Some x -> exists y, nth_error m n = Some y /\ P x y.
Proof. intros H. induction H as [|x y l m Pxy H IH]; intros [|n] z; cbn [nth_error]; try discriminate; [|apply IH]. intros Q. injection Q as <-. eauto. Qed.
Lemma Forall2_nth_r {A B} (P : A -> B -> Prop) l m : Forall2 P l m -> forall n y, nth_error m n = Some y -> exists x, nth_error l n = Some x /\ P x y.
Proof. intros H. induction H as [|x y l m Pxy H IH]; intros [|n] z; cbn [nth_error]; try discriminate; [|apply IH]. intros Q. injection Q as <-. eauto. Qed.

Section Merge.
  Context (ords ordf : list Z -> list Z) (Hords : forall l x, In x (ords l) <-> In x l) (Hordf : forall l, Permutation (ordf l) l).

  (** [k] is one of the cells into which merge_rules splits [k0] *)
  Definition ing (A : list Z) (k0 k : shim) : Prop := exists I0 X0 s, all_wc X0 /\ rep k0 I0 X0 /\ cell k I0 X0 s A.
  Definition has_rep (k : shim) : Prop := exists I0 X0, all_wc X0 /\ rep k I0 X0.

  Lemma ing_any A k0 k I0 X0 : NoDup A -> all_wc A -> ing A k0 k -> all_wc X0 -> rep k0 I0 X0 -> exists s, cell k I0 X0 s A.
  Proof.
    intros ND WA (I1 & X1 & s & W1 & R1 & C1) W0 R0.
    destruct (splits_ok ords Hords tt I1 X1 W1 A [(k0, tt)] []) as (G & E & HG); auto; [now apply gspec_init|].
    destruct (splits_ok ords Hords tt I0 X0 W0 A [(k0, tt)] []) as (G' & E' & HG'); auto; [now apply gspec_init|].
    rewrite E in E'. injection E' as <-. cbn [app] in *.
    assert (Q : sget G k = Some tt) by (apply (gspec_get tt I1 X1 W1 G A k WA HG); split; eauto).
    apply (gspec_get tt I0 X0 W0 G A k WA HG') in Q. apply Q.
  Qed.

  Context {V : Type}.
  Lemma merge_fold A (ND : NoDup A) (WA : all_wc A) : forall (D R : sdict V), distinct R -> (forall k v, In (k, v) D -> has_rep k) ->
    exists R', rfold (fun resulting r => do g <- rfold (split_cells ords (snd r)) A [r]; Ok (supdate g resulting)) D R = Ok R' /\ distinct R' /\
      (forall k x, sget R k = Some x -> sget R' k = Some x) /\
      (forall k x, sget R k = None -> sget R' k = Some x -> exists D1 k0 D2, D = D1 ++ (k0, x) :: D2 /\ ing A k0 k /\ forall k1 x1, In (k1, x1) D1 -> ~ ing A k1 k) /\
      (forall k0 x0 k, In (k0, x0) D -> ing A k0 k -> exists x, sget R' k = Some x).
  Proof.
    induction D as [|[k0 v0] D IH]; intros R DR HD; cbn [rfold].
    - exists R. split; [reflexivity|]. split; [exact DR|]. split; [auto|]. split; [intros k x H1 H2; congruence|intros k0 x0 k []].
    - destruct (HD k0 v0 (or_introl eq_refl)) as (I0 & X0 & W0 & R0). cbn [snd].
      destruct (splits_ok ords Hords v0 I0 X0 W0 A [(k0, v0)] []) as (g & Eg & Hg); auto; [now apply gspec_init|]. cbn [app] in Hg.
      rewrite Eg. cbn [rbind].
      assert (GI : forall k x, sget g k = Some x <-> x = v0 /\ ing A k0 k).
      { intros k x. rewrite (gspec_get v0 I0 X0 W0 g A k WA Hg x). split; intros [-> H]; (split; [reflexivity|]).
        - destruct H as (s & Hs). exists I0, X0, s. auto.
        - now apply (ing_any A k0 k). }
      destruct (supdate_spec R DR g) as [Dd Hget]. destruct Hg as (Dg & _).
      destruct (IH (supdate g R) (Dd Dg)) as (R' & E & DR' & H1 & H2 & H3); [intros k v H; apply (HD k v); now right|].
      exists R'. split; [exact E|]. split; [exact DR'|]. split; [|split].
      + intros k x H. apply H1. now rewrite Hget, H.
      + intros k x HN H. destruct (sget g k) as [y|] eqn:Eg'.
        * assert (Q : sget R' k = Some y) by (apply H1; now rewrite Hget, HN). rewrite Q in H. injection H as <-.
          apply GI in Eg'. destruct Eg' as [-> Hi]. exists [], k0, D. split; [reflexivity|]. split; [exact Hi|]. intros k1 x1 [].
        * destruct (H2 k x) as (D1 & k1 & D2 & -> & Hi & HN1); [now rewrite Hget, HN|exact H|].
          exists ((k0, v0) :: D1), k1, D2. split; [reflexivity|]. split; [exact Hi|]. intros k2 x2 [Q|Q]; [|eauto].
          injection Q as <- <-. intros N. assert (sget g k = Some v0) by (apply GI; auto). congruence.
      + intros k1 x1 k [Q|Q] Hi; [|eauto]. injection Q as <- <-. destruct (sget R k) as [y|] eqn:ER.
        * exists y. apply H1. now rewrite Hget, ER.
        * exists v0. apply H1. rewrite Hget, ER. apply GI. auto.
  Qed.

  Lemma ordf_nodup A : NoDup A -> NoDup (ordf A).
  Proof. intros H. eapply Permutation_NoDup; [|exact H]. symmetry. apply Hordf. Qed.
  Lemma ordf_in A x : In x (ordf A) <-> In x A.
  Proof. split; apply Permutation_in; [|symmetry]; apply Hordf. Qed.
  Lemma ing_ordf A k0 k : ing (ordf A) k0 k <-> ing A k0 k.
  Proof.
    split; intros (I0 & X0 & s & W & R & H0); exists I0, X0, s; (split; [exact W|]); (split; [exact R|]); (eapply cell_ext; [| |exact H0]; [|reflexivity]); intros w; [|symmetry]; apply ordf_in.
  Qed.
  Lemma merge_ok A (ND : NoDup A) (WA : all_wc A) (D : sdict V) : (forall k v, In (k, v) D -> has_rep k) ->
    exists R', merge_rules ords ordf D A = Ok R' /\ distinct R' /\
      (forall k x, sget R' k = Some x -> exists D1 k0 D2, D = D1 ++ (k0, x) :: D2 /\ ing A k0 k /\ forall k1 x1, In (k1, x1) D1 -> ~ ing A k1 k) /\
      (forall k0 x0 k, In (k0, x0) D -> ing A k0 k -> exists x, sget R' k = Some x).
  Proof.
    intros HD. unfold merge_rules. destruct (merge_fold (ordf A) (ordf_nodup A ND)) with (D := D) (R := @nil (shim * V)) as (R' & E & DR & _ & H2 & H3); auto.
    { intros w Hw. apply WA. now apply ordf_in. } { exact Logic.I. }
    exists R'. split; [exact E|]. split; [exact DR|]. split.
    - intros k x H. destruct (H2 k x eq_refl H) as (D1 & k0 & D2 & Q & Hi & HN). exists D1, k0, D2. split; [exact Q|]. split; [now apply ing_ordf|].
      intros k1 x1 Hk N. apply (HN k1 x1 Hk). now apply ing_ordf.
    - intros k0 x0 k Hk Hi. apply (H3 k0 x0 k Hk). now apply ing_ordf.
  Qed.

  (** ** The normal form *)
  Definition normform (R : sdict V) (F : list Z) (L : list (Z * V)) : Prop :=
    distinct R /\
    (forall s k, szero k = false -> cell k [] [] s F -> sget R k = first_of s L) /\
    (forall k v, In (k, v) R -> szero k = false -> exists s, cell k [] [] s F) /\
    (L <> [] -> exists k v, In (k, v) R /\ szero k = true) /\
    (L = [] -> R = []).

  Lemma cell_live k I0 X0 s A : szero k = false -> cell k I0 X0 s A -> ~ dead (I0 ++ pos s A) (X0 ++ neg s A).
  Proof. intros Z H. now apply (rep_live _ _ _ H). Qed.
  Lemma dead_weak I0 X I1 X1 : (forall w, In w I0 -> In w I1) -> (forall w, In w X -> In w X1) -> dead I0 X -> dead I1 X1.
  Proof.
    intros A B [H|(x & Hx & H)].
    - left. intros (p & Hp). apply H. exists p. intros w Hw. apply Hp, A, Hw.
    - right. exists x. split; [auto|]. intros p Hp. apply H. intros w Hw. apply Hp, A, Hw.
  Qed.

  Lemma first_of_ext (s t : Z -> bool) (L : list (Z * V)) : (forall w, In w (map fst L) -> s w = t w) -> first_of s L = first_of t L.
  Proof.
    induction L as [|[w v] L IH]; intros H; cbn [first_of]; [reflexivity|]. rewrite (H w) by (now left). rewrite IH; [reflexivity|]. intros z Hz. apply H. now right.
  Qed.
  Lemma cells_agree F k s t : szero k = false -> cell k [] [] s F -> cell k [] [] t F -> forall w, In w F -> s w = t w.
  Proof.
    intros Z Cs Ct w Hw.
    assert (P : forall u, parts F ([] ++ pos u F) ([] ++ neg u F)).
    { intros u z. cbn [app]. rewrite pos_in, neg_in. split; [intros H; destruct (u z); auto|intros [[H _]|[H _]]; auto]. }
    destruct (rep_sep F k k _ _ _ _ (P s) (P t) Cs Ct Z (shim_eqb_refl k)) as [A B]. cbn [app] in A, B.
    specialize (A w). specialize (B w). rewrite !pos_in in A. rewrite !neg_in in B. destruct (s w) eqn:Es, (t w) eqn:Et; try reflexivity.
    - destruct A as [A _]. destruct (A (conj Hw eq_refl)). discriminate.
    - destruct B as [B _]. destruct (B (conj Hw eq_refl)). discriminate.
  Qed.

  Lemma zero_dead : dead [0] [].
  Proof. left. intros (p & Hp). apply (accepts_0 p). apply Hp. now left. Qed.
  Lemma rep_zero k : szero k = true -> rep k [0] [].
  Proof. intros Z. left. split; [exact Z|exact zero_dead]. Qed.
  Lemma ing_live A k0 k : ing A k0 k -> szero k = false -> szero k0 = false.
  Proof.
    intros (I0 & X0 & s & _ & R & H0) Z. apply (rep_live _ _ _ R). intros N. apply (cell_live _ _ _ _ _ Z H0).
    eapply dead_weak; [| |exact N]; intros w Hw; apply in_app_iff; auto.
  Qed.
  Lemma zset_nodup l : NoDup (zset l).
  Proof.
    unfold zset. assert (X : forall l acc, NoDup acc -> NoDup (fold_left zadd l acc)); [|apply X; constructor].
    clear l. induction l as [|a l IH]; intros acc Na; cbn [fold_left]; [exact Na|]. apply IH. unfold zadd. destruct (zin a acc) eqn:Ea; [exact Na|].
    apply zin_not in Ea. eapply Permutation_NoDup; [apply Permutation_cons_append|]. now constructor.
  Qed.
  Lemma first_of_pos s (L : list (Z * V)) x : first_of s L = Some x -> forall F, (forall w, In w (map fst L) -> In w F) -> exists w, In w F /\ s w = true.
  Proof.
    induction L as [|[w v] L IH]; cbn [first_of]; [discriminate|]. intros Ef F HL. destruct (s w) eqn:Es; [exists w; split; [apply HL; now left|exact Es]|].
    apply (IH Ef). intros z Hz; apply HL; now right.
  Qed.
  Lemma cell_exists F s : all_wc F -> (exists w, In w F /\ s w = true) -> exists k, cell k [] [] s F.
  Proof.
    intros WF (w & Hw & Sw). destruct (shim_of_ok ords w (WF w Hw)) as (kw & _ & Rw & _).
    destruct (splits_ok ords Hords tt [w] [] (fun z Hz => match Hz with end) (zset F) [(kw, tt)] []) as (G & _ & HG).
    - cbn [app]. apply zset_nodup.
    - cbn [app]. intros z Hz. apply WF. exact (proj1 (zset_in _ _) Hz).
    - now apply gspec_init.
    - destruct HG as (_ & _ & _ & To). destruct (To s) as (k0 & _ & H0). exists k0. cbn [app] in H0. unfold cell in *. eapply rep_ext; [| |exact H0]; intros z; cbn [app In]; rewrite ?pos_in, ?neg_in, zset_in.
      + split; [intros [<-|H3]; auto|auto].
      + reflexivity.
  Qed.
  (** further fields refine a normal form *)
  Lemma normform_more R F L A : all_wc F -> all_wc A -> NoDup A -> (forall w, In w F -> ~ In w A) -> (forall w, In w (map fst L) -> In w F) -> normform R F L ->
    exists R', merge_rules ords ordf R A = Ok R' /\ normform R' (F ++ A) L.
  Proof.
    intros WF WA ND DJ HL (DR & Hg & Hc & Hzr & He).
    assert (WN : forall s, all_wc ([] ++ neg s F)) by (intros s w Hw; cbn [app] in Hw; rewrite neg_in in Hw; apply WF, Hw).
    destruct (merge_ok A ND WA R) as (R' & E & DR' & H1 & H2).
    { intros k v Hk. destruct (szero k) eqn:Z0; [exists [0], []; split; [intros w []|now apply rep_zero]|]. destruct (Hc k v Hk Z0) as (s & Hs). exists ([] ++ pos s F), ([] ++ neg s F). auto. }
    exists R'. split; [exact E|].
    assert (GLUE : forall k s t, cell k ([] ++ pos s F) ([] ++ neg s F) t A ->
      cell k [] [] (fun w => if zin w F then s w else t w) (F ++ A)).
    { intros k s t H. unfold cell in *. eapply rep_ext; [| |exact H]; intros w; cbn [app]; rewrite in_app_iff, ?pos_in, ?neg_in, in_app_iff; (destruct (zin w F) eqn:Z; [apply zin_in in Z; pose proof (DJ w Z)|apply zin_not in Z]); tauto. }
    assert (UNGLUE : forall k s, cell k [] [] s (F ++ A) -> cell k ([] ++ pos s F) ([] ++ neg s F) s A).
    { intros k s H. unfold cell in *. eapply rep_ext; [| |exact H]; intros w; cbn [app]; rewrite in_app_iff, ?pos_in, ?neg_in, in_app_iff; tauto. }
    split; [exact DR'|]. split; [|split; [|split]].
    - intros s k Z H. pose proof (UNGLUE k s H) as HU.
      assert (UNIQ : forall k0 x, In (k0, x) R -> ing A k0 k -> first_of s L = Some x).
      { intros k0 x Hk0 Hi. assert (Z0 : szero k0 = false) by (eapply ing_live; eauto). destruct (Hc k0 x Hk0 Z0) as (t & Ht). destruct (ing_any A k0 k _ _ ND WA Hi (WN t) Ht) as (u & Hu).
        pose proof (GLUE k t u Hu) as HG.
        pose proof (cells_agree (F ++ A) k _ _ Z HG H) as AG.
        assert (AG' : forall w, In w F -> t w = s w). { intros w Hw. rewrite <- (AG w) by (apply in_app_iff; auto). cbn beta. apply zin_in in Hw. now rewrite Hw. }
        rewrite <- (first_of_ext t s L) by (intros w Hw; apply AG'; auto). rewrite <- (Hg t k0 Z0 Ht). now apply sget_in. }
      destruct (sget R' k) as [x|] eqn:Ek.
      + destruct (H1 k x Ek) as (D1 & k0 & D2 & -> & Hi & _). symmetry. apply (UNIQ k0 x); [apply in_app_iff; right; now left|exact Hi].
      + destruct (first_of s L) as [x|] eqn:Ef; [|reflexivity]. exfalso.
        (* the cell over the first fields is live and in the dict *)
        assert (N0 : ~ dead ([] ++ pos s F) ([] ++ neg s F)).
        { intros N. pose proof (cell_live _ _ _ _ _ Z HU) as NN. apply NN. eapply dead_weak; [| |exact N]; intros w Hw; apply in_app_iff; auto. }
        destruct (cell_exists F s WF (first_of_pos s L x Ef F HL)) as (k0 & H0).
assert (Z0 : szero k0 = false) by (now apply (rep_live _ _ _ H0)).
        pose proof (Hg s k0 Z0 H0) as G0. rewrite Ef in G0. destruct (sget_some _ _ _ G0) as (k1 & Hk1 & Q1).
        assert (C1 : cell k1 [] [] s F) by (apply (rep_eq k0 k1); [now apply shim_eqb_sym|exact H0]).
        destruct (H2 k1 x k Hk1) as (y & Hy); [exists ([] ++ pos s F), ([] ++ neg s F), s; auto|]. congruence.
    - intros k v Hk Z. pose proof (sget_in _ _ _ DR' Hk) as G. destruct (H1 k v G) as (D1 & k0 & D2 & ER & Hi & _).
      destruct (Hc k0 v) as (t & Ht); [rewrite ER; apply in_app_iff; right; now left|eapply ing_live; eauto|]. destruct (ing_any A k0 k _ _ ND WA Hi (WN t) Ht) as (u & Hu).
      eexists. apply GLUE. exact Hu.
    - intros NL. destruct (Hzr NL) as (k & v & Hk & Z). pose proof (rep_zero k Z) as RZ.
      destruct (H2 k v k Hk) as (x & Hx).
      { exists [0], [], (fun _ => true). split; [intros w []|]. split; [exact RZ|]. unfold cell. left. split; [exact Z|]. eapply dead_weak; [| |exact zero_dead]; intros w Hw; [apply in_app_iff; now left|destruct Hw]. }
      destruct (sget_some _ _ _ Hx) as (k' & Hk' & Q). exists k', x. split; [exact Hk'|]. now rewrite (shim_eqb_zero _ _ Q).
    - intros EL. specialize (He EL). subst R. destruct R' as [|[k v] R']; [reflexivity|]. exfalso. destruct DR' as [_ _].
      destruct (H1 k v) as (D1 & k0 & D2 & Q & _); [cbn [sget]; now rewrite shim_eqb_refl|]. now destruct D1.
  Qed.

  (** ** normalise *)
  Definition entry (kv : shim * V) (wv : Z * V) : Prop := snd kv = snd wv /\ shim_of ords (fst wv) = Ok (fst kv).
  Lemma shim_of_val w : shim_of ords w = Ok (mkShim (w =? 0) (Some w) []).
  Proof. reflexivity. Qed.
  Lemma first_of_snoc s (L : list (Z * V)) w v : first_of s (L ++ [(w, v)]) = match first_of s L with Some x => Some x | None => if s w then Some v else None end.
  Proof. induction L as [|[w' v'] L IH]; cbn [app first_of]; [reflexivity|]. now destruct (s w'). Qed.
  Lemma first_of_in s (L : list (Z * V)) w : In w (map fst L) -> s w = true -> first_of s L <> None.
  Proof.
    induction L as [|[w' v'] L IH]; cbn [map In first_of fst]; [intros []|]. intros [->|H] Sw; [now rewrite Sw|]. destruct (s w'); [discriminate|auto].
  Qed.
  Lemma shim_map_ok (L : list (Z * V)) : all_wc (map fst L) -> exists D L', shim_map ords L = Ok D /\ Forall2 entry D L' /\ (forall s, first_of s L' = first_of s L) /\
    (forall w, In w (map fst L') -> In w (map fst L)) /\ (L <> [] -> D <> []).
  Proof.
    unfold shim_map.
    enough (X : forall L P (D : sdict V) L', all_wc (map fst (P ++ L)) -> Forall2 entry D L' -> (forall s, first_of s L' = first_of s P) -> (forall w, In w (map fst L') -> In w (map fst P)) -> (P <> [] -> D <> []) ->
      exists D1 L1, rfold (fun ret r => do b <- shim_of ords (fst r); Ok (sput ret b (snd r))) L D = Ok D1 /\ Forall2 entry D1 L1 /\ (forall s, first_of s L1 = first_of s (P ++ L)) /\
        (forall w, In w (map fst L1) -> In w (map fst (P ++ L))) /\ (P ++ L <> [] -> D1 <> [])).
    { intros W. apply (X L [] [] []); auto. }
    clear L. induction L as [|[w v] L IH]; intros P D L' W F2 Hf Hi Hn; cbn [rfold].
    - exists D, L'. rewrite app_nil_r. auto.
    - cbn [fst snd]. rewrite shim_of_val. cbn [rbind]. set (b := mkShim (w =? 0) (Some w) []). unfold sput.
      assert (Ww : wc_ok w) by (apply W; rewrite map_app, in_app_iff; right; now left).
      assert (Zb : szero b = false) by (apply Z.eqb_neq, zfree_nonzero, Ww).
      replace (P ++ (w, v) :: L) with ((P ++ [(w, v)]) ++ L) in * by (now rewrite <- app_assoc).
      destruct (sget D b) as [x|] eqn:E.
      + apply (IH _ _ L'); auto.
        * intros s. rewrite first_of_snoc, <- Hf. destruct (first_of s L') as [y|] eqn:Ef; [reflexivity|]. destruct (s w) eqn:Es; [|reflexivity].
          exfalso. apply (first_of_in s L' w); auto. destruct (sget_some _ _ _ E) as (k' & Hk & Q). apply In_nth_error in Hk. destruct Hk as (n & Hn').
          destruct (Forall2_nth_l _ _ _ F2 n _ Hn') as ([w' v'] & Hw' & [_ Hs]). cbn [fst] in Hs. rewrite shim_of_val in Hs. injection Hs as <-.
          apply shim_eqb_iff in Q. destruct Q as [[_ Q]|(_ & _ & Q & _)]; [congruence|]. cbn [sinc b] in Q. injection Q as ->.
          apply nth_error_In in Hw'. apply (in_map fst) in Hw'. exact Hw'.
        * intros z Hz. rewrite map_app, in_app_iff. auto.
        * intros _ ->. discriminate.
      + apply (IH _ _ (L' ++ [(w, v)])); auto.
        * apply Forall2_app; [exact F2|]. constructor; [|constructor]. split; [reflexivity|]. apply shim_of_val.
        * intros s. now rewrite !first_of_snoc, Hf.
        * intros z. rewrite !map_app, !in_app_iff. intros [Hz|Hz]; auto.
        * intros _ Q. now destruct D.
  Qed.

  Lemma ing_entry F k0 x w y k s : NoDup F -> all_wc F -> In w F -> entry (k0, x) (w, y) -> szero k = false -> cell k [] [] s F -> ing F k0 k <-> s w = true.
  Proof.
    intros ND WF Hw [_ He] Z Hc. cbn [fst] in He. destruct (shim_of_ok ords w (WF w Hw)) as (kw & Ew & Rw & _). rewrite He in Ew. injection Ew as <-. split.
    - intros Hi. destruct (ing_any F k0 k [w] [] ND WF Hi (fun z Hz => match Hz with end) Rw) as (t & Ht).
      pose proof (cell_live _ _ _ _ _ Z Ht) as N. destruct (t w) eqn:Et.
      + assert (Ct : cell k [] [] t F).
        { unfold cell in *. eapply rep_ext; [| |exact Ht]; intros z; cbn [app In]; rewrite ?pos_in; [|reflexivity]. split; [intros [<-|Q]; auto|auto]. }
        rewrite <- Et. now apply (cells_agree F k).
      + exfalso. apply (live_disjoint _ _ w N); [now left|]. cbn [app]. now apply neg_in.
    - intros Sw. exists [w], [], s. split; [intros z []|]. split; [exact Rw|]. unfold cell in *. eapply rep_ext; [| |exact Hc]; intros z; cbn [app In]; rewrite ?pos_in; [|reflexivity].
      split; [auto|intros [<-|Q]; auto].
  Qed.
  Lemma ing_cell F k0 x w y k : NoDup F -> all_wc F -> In w F -> entry (k0, x) (w, y) -> szero k = false -> ing F k0 k -> exists s, cell k [] [] s F.
  Proof.
    intros ND WF Hw [_ He] Z Hi. cbn [fst] in He. destruct (shim_of_ok ords w (WF w Hw)) as (kw & Ew & Rw & _). rewrite He in Ew. injection Ew as <-.
    destruct (ing_any F k0 k [w] [] ND WF Hi (fun z Hz => match Hz with end) Rw) as (t & Ht).
    pose proof (cell_live _ _ _ _ _ Z Ht) as N. destruct (t w) eqn:Et.
    - exists t. unfold cell in *. eapply rep_ext; [| |exact Ht]; intros z; cbn [app In]; rewrite ?pos_in; [|reflexivity]. split; [intros [<-|Q]; auto|auto].
    - exfalso. apply (live_disjoint _ _ w N); [now left|]. cbn [app]. now apply neg_in.
  Qed.

  Lemma first_of_split s (L1 : list (Z * V)) w v L2 : s w = true -> (forall w' v', In (w', v') L1 -> s w' = false) -> first_of s (L1 ++ (w, v) :: L2) = Some v.
  Proof. induction L1 as [|[w' v'] L1 IH]; intros Sw H; cbn [app first_of]; [now rewrite Sw|]. rewrite (H w' v' (or_introl eq_refl)). apply IH; auto. intros a b Q. apply (H a b). now right. Qed.

  Lemma normal_ok (L : list (Z * V)) : all_wc (map fst L) -> exists D R, shim_map ords L = Ok D /\ merge_rules ords ordf D (zset (map fst L)) = Ok R /\ normform R (zset (map fst L)) L.
  Proof.
    intros W. destruct (shim_map_ok L W) as (D & L' & ED & F2 & Hf & Hi & Hn). set (F := zset (map fst L)).
    assert (WF : all_wc F) by (intros w Hw; apply W; exact (proj1 (zset_in _ _) Hw)).
    assert (ND : NoDup F) by apply zset_nodup.
    assert (EN : forall k x, In (k, x) D -> exists w, In (w, x) L' /\ In w F /\ entry (k, x) (w, x)).
    { intros k x Hk. apply In_nth_error in Hk. destruct Hk as (n & Hk). destruct (Forall2_nth_l _ _ _ F2 n _ Hk) as ([w y] & Hw & He).
      destruct He as [Q He]. cbn [snd] in Q. subst y. exists w. apply nth_error_In in Hw. split; [exact Hw|]. split; [|split; auto].
      apply zset_in, Hi. apply (in_map fst) in Hw. exact Hw. }
    destruct (merge_ok F ND WF D) as (R & ER & DR & H1 & H2).
    { intros k x Hk. destruct (EN k x Hk) as (w & _ & Hw & [_ He]). destruct (shim_of_ok ords w (WF w Hw)) as (kw & Ew & Rw & _). cbn [fst] in He. rewrite He in Ew. injection Ew as <-.
      exists [w], []. split; [intros z []|exact Rw]. }
    exists D, R. split; [exact ED|]. split; [exact ER|]. split; [exact DR|]. split; [|split; [|split]].
    - intros s k Z Hc. rewrite <- Hf. destruct (sget R k) as [x|] eqn:Ek.
      + destruct (H1 k x Ek) as (D1 & k0 & D2 & QD & Hg & HN). rewrite QD in F2. apply Forall2_app_inv_l in F2. destruct F2 as (L1 & L2 & F21 & F22 & QL).
        inversion F22 as [|a b c d [Qe He] F23]; subst. destruct b as [w y]. cbn [fst snd] in *. subst y. symmetry.
        assert (INL : forall w0 v0, In (w0, v0) (L1 ++ (w, x) :: d) -> In w0 F) by (intros w0 v0 Q; apply zset_in, Hi; apply (in_map fst) in Q; exact Q).
        apply first_of_split.
        * apply (ing_entry F k0 x w x k s ND WF); auto; [apply (INL w x); apply in_app_iff; right; now left|split; auto].
        * intros w' v' Hw'. destruct (s w') eqn:Es; [|reflexivity]. exfalso.
          apply In_nth_error in Hw' as Hn'. destruct Hn' as (n & Hn'). destruct (Forall2_nth_r _ _ _ F21 n _ Hn') as ([k1 x1] & Hk1 & He1).
          apply (HN k1 x1); [eapply nth_error_In; eauto|]. apply (ing_entry F k1 x1 w' v' k s ND WF); auto. apply (INL w' v'). apply in_app_iff. now left.
      + destruct (first_of s L') as [x|] eqn:Ef; [|reflexivity]. exfalso.
        assert (X : exists w, In (w, x) L' /\ s w = true).
        { clear -Ef. induction L' as [|[w v] L IH]; cbn [first_of] in Ef; [discriminate|]. destruct (s w) eqn:Es; [injection Ef as ->; exists w; split; [now left|exact Es]|].
          destruct (IH Ef) as (w1 & A & B). exists w1. split; [now right|exact B]. }
        destruct X as (w & Hw & Sw). apply In_nth_error in Hw as Hn'. destruct Hn' as (n & Hn'). destruct (Forall2_nth_r _ _ _ F2 n _ Hn') as ([k1 x1] & Hk1 & He1).
        destruct (H2 k1 x1 k) as (y & Hy); [eapply nth_error_In; eauto| |congruence].
        apply (ing_entry F k1 x1 w x k s ND WF); auto. apply zset_in, Hi. apply (in_map fst) in Hw. exact Hw.
    - intros k v Hk Z. pose proof (sget_in _ _ _ DR Hk) as G. destruct (H1 k v G) as (D1 & k0 & D2 & QD & Hg & _).
      destruct (EN k0 v) as (w & _ & Hw & He); [rewrite QD; apply in_app_iff; right; now left|]. apply (ing_cell F k0 v w v k ND WF Hw He Z Hg).
    - intros NL. specialize (Hn NL). destruct D as [|[k0 x0] D]; [congruence|]. destruct (EN k0 x0 (or_introl eq_refl)) as (w & _ & Hw & [_ He]). cbn [fst] in He.
      destruct (shim_of_ok ords w (WF w Hw)) as (kw & Ew & Rw & _). rewrite He in Ew. injection Ew as <-.
      destruct (H2 k0 x0 shim_zero (or_introl eq_refl)) as (y & Hy).
      { exists [w], [], (fun _ => false). split; [intros z []|]. split; [exact Rw|]. left. split; [reflexivity|]. right. exists w. cbn [app]. split; [now apply neg_in|]. intros p Hp. apply Hp. now left. }
      destruct (sget_some _ _ _ Hy) as (k' & Hk' & Q). exists k', y. split; [exact Hk'|]. now rewrite (shim_eqb_zero _ _ Q).
    - intros ->. injection ED as <-. unfold merge_rules in ER. cbn [rfold] in ER. now injection ER as <-.
  Qed.
End Merge.

(** ** check_equal *)
Lemma inj_len {A} (R : A -> A -> bool) (sym : forall x y, R x y = true -> R y x = true) (trans : forall x y z, R x y = true -> R y z = true -> R x z = true) :
  forall l1 l2, ForallOrdPairs (fun x y => R x y = false) l1 -> (forall x, In x l1 -> exists y, In y l2 /\ R x y = true) -> (List.length l1 <= List.length l2)%nat.
Proof.
  induction l1 as [|x l1 IH]; intros l2 D M; cbn [List.length]; [lia|]. inversion D as [|a b Dx Dl]; subst.
  destruct (M x (or_introl eq_refl)) as (y0 & Hy0 & R0). apply in_split in Hy0. destruct Hy0 as (a & b & ->).
  enough (List.length l1 <= List.length (a ++ b))%nat by (rewrite app_length in *; cbn [List.length]; lia).
  apply IH; [exact Dl|]. intros x' Hx'. destruct (M x' (or_intror Hx')) as (y' & Hy' & R'). apply in_app_iff in Hy'. cbn [In] in Hy'.
  destruct Hy' as [Hy'|[<-|Hy']]; [exists y'; rewrite in_app_iff; auto| |exists y'; rewrite in_app_iff; auto].
  exfalso. rewrite Forall_forall in Dx. pose proof (Dx x' Hx') as P. rewrite (trans x y0 x' R0 (sym _ _ R')) in P. discriminate.
Qed.
Lemma distinct_keys {V} (d : sdict V) : distinct d -> ForallOrdPairs (fun x y => shim_eqb x y = false) (map fst d).
Proof.
  induction d as [|[k v] d IH]; cbn [distinct map fst]; [constructor|]. intros [N D]. constructor; [|auto].
  apply Forall_forall. intros k' Hk'. apply in_map_iff in Hk'. destruct Hk' as ([k1 v1] & <- & H). eapply N. exact H.
Qed.
Lemma in_fst {V} (d : sdict V) k : In k (map fst d) <-> exists v, In (k, v) d.
Proof. rewrite in_map_iff. split; [intros ([k' v] & <- & H); eauto|intros (v & H); exists (k, v); auto]. Qed.
Lemma sdel_none {V} (d : sdict V) k : sget d k = None -> sdel d k = Err KeyError.
Proof. induction d as [|[k0 v0] d IH]; cbn [sget sdel]; [reflexivity|]. destruct (shim_eqb k0 k); [discriminate|]. intros H. now rewrite IH. Qed.

Section Equal.
  Context (ords ordf : list Z -> list Z) (Hords : forall l x, In x (ords l) <-> In x l) (Hordf : forall l, Permutation (ordf l) l).
  Notation V := po_value.

  Lemma del_zero (R : sdict V) F L : normform R F L -> L <> [] -> exists R', sdel R shim_zero = Ok R' /\ distinct R' /\ forall k v, In (k, v) R' <-> In (k, v) R /\ szero k = false.
  Proof.
    intros (D & _ & _ & Hz & _) NL. destruct (Hz NL) as (k & v & Hk & Z).
    destruct (sdel_spec R shim_zero D) as (R' & E & D' & H).
    { rewrite <- (sget_eq R k shim_zero); [rewrite (sget_in _ _ _ D Hk); discriminate|]. apply shim_eqb_iff. left. auto. }
    exists R'. split; [exact E|]. split; [exact D'|]. intros k' v'. rewrite H. split; intros [A B]; (split; [exact A|]).
    - destruct (szero k') eqn:Zk; [|reflexivity]. assert (shim_eqb k' shim_zero = true) by (apply shim_eqb_iff; left; auto). congruence.
    - destruct (shim_eqb k' shim_zero) eqn:Q; [|reflexivity]. apply shim_eqb_zero in Q. cbn [szero shim_zero] in Q. congruence.
  Qed.
  Lemma del_get (R R' : sdict V) k : distinct R -> distinct R' -> (forall k v, In (k, v) R' <-> In (k, v) R /\ szero k = false) -> szero k = false -> sget R' k = sget R k.
  Proof.
    intros D D' H Z. destruct (sget R k) as [v|] eqn:E.
    - destruct (sget_some _ _ _ E) as (k' & Hk & Q). rewrite <- (sget_eq R' k' k Q). apply sget_in; [exact D'|]. apply H. split; [exact Hk|]. now rewrite (shim_eqb_zero _ _ Q).
    - apply sget_none. intros k' v' Hk. apply H in Hk. apply (proj1 (sget_none R k) E k' v' (proj1 Hk)).
  Qed.

  Lemma eq_spec R1 R2 F1 F2 L1 L2 W1 W2 : (forall w, In w F1 <-> In w F2) -> all_wc F1 -> (forall w, In w (map fst L1) -> In w F1) -> (forall w, In w (map fst L2) -> In w F2) ->
    normform R1 F1 L1 -> normform R2 F2 L2 ->
    distinct W1 -> distinct W2 -> (forall k v, In (k, v) W1 <-> In (k, v) R1 /\ szero k = false) -> (forall k v, In (k, v) W2 <-> In (k, v) R2 /\ szero k = false) ->
    (sdict_eqb W1 W2 = true <-> forall s, ~ dead (pos s F1) (neg s F1) -> first_of s L1 = first_of s L2).
  Proof.
    intros EF WF HL1 HL2 (D1 & G1 & C1 & _) (D2 & G2 & C2 & _) DW1 DW2 K1 K2.
    assert (T : forall k s, cell k [] [] s F1 <-> cell k [] [] s F2) by (intros k s; split; apply cell_ext; try (intros w _; reflexivity); intros w; [|symmetry]; apply EF).
    pose proof (fun k Z => del_get R1 W1 k D1 DW1 K1 Z) as S1. pose proof (fun k Z => del_get R2 W2 k D2 DW2 K2 Z) as S2.
    unfold sdict_eqb. rewrite andb_true_iff, Nat.eqb_eq, forallb_forall. split.
    - intros [EL H] s NL.
      assert (LOOK : forall k v, In (k, v) W1 -> sget W2 k = Some v).
      { intros k v Hk. specialize (H _ Hk). cbn [fst snd] in H. destruct (sget W2 k) as [v'|]; [|discriminate]. destruct (po_eq_dec v v') as [->|]; [reflexivity|discriminate]. }
      assert (CASE : (exists x, first_of s L1 = Some x) \/ (exists x, first_of s L2 = Some x) \/ (first_of s L1 = None /\ first_of s L2 = None))
        by (destruct (first_of s L1), (first_of s L2); eauto).
      assert (NE : (exists x, first_of s L1 = Some x) \/ (exists x, first_of s L2 = Some x) -> exists k, szero k = false /\ cell k [] [] s F1).
      { intros Q. destruct (cell_exists ords Hords F1 s WF) as (k & Hk).
        - destruct Q as [(x & Q)|(x & Q)]; [exact (first_of_pos s L1 x Q F1 HL1)|]. apply (first_of_pos s L2 x Q). intros w Hw. apply EF, HL2, Hw.
        - exists k. split; [|exact Hk]. now apply (rep_live _ _ _ Hk). }
      destruct CASE as [Q|[Q|[Q1 Q2]]]; [| |congruence].
      + destruct (NE (or_introl Q)) as (k & Z & Hk). destruct Q as (x & Q). rewrite Q.
        pose proof (G1 s k Z Hk) as A. rewrite <- (S1 k Z), Q in A. destruct (sget_some _ _ _ A) as (k1 & Hk1 & Qk). pose proof (LOOK k1 x Hk1) as B.
        rewrite (sget_eq W2 k1 k Qk), (S2 k Z), (G2 s k Z (proj1 (T k s) Hk)) in B. congruence.
      + destruct (NE (or_intror Q)) as (k & Z & Hk). destruct Q as (x & Q).
        pose proof (G2 s k Z (proj1 (T k s) Hk)) as A. rewrite <- (S2 k Z), Q in A. destruct (sget_some _ _ _ A) as (k2 & Hk2 & Qk).
        destruct (pigeon shim_eqb shim_eqb_sym shim_eqb_trans (map fst W1) (map fst W2) (distinct_keys _ DW1)) with (y := k2) as (k1 & Hk1 & Q1).
        * intros k1 Hk1. apply in_fst in Hk1. destruct Hk1 as (v & Hk1). destruct (sget_some _ _ _ (LOOK k1 v Hk1)) as (k' & Hk' & Q'). exists k'. split; [apply in_fst; eauto|now apply shim_eqb_sym].
        * rewrite !map_length. lia.
        * apply in_fst. eauto.
        * apply in_fst in Hk1. destruct Hk1 as (v & Hk1). pose proof (LOOK k1 v Hk1) as B. pose proof (sget_in _ _ _ DW1 Hk1) as A1.
          assert (Qk1 : shim_eqb k1 k = true) by (eapply shim_eqb_trans; eauto).
          rewrite (sget_eq W1 k1 k Qk1), (S1 k Z), (G1 s k Z Hk) in A1. rewrite (sget_eq W2 k1 k Qk1), (S2 k Z), (G2 s k Z (proj1 (T k s) Hk)) in B. congruence.
    - intros H.
      assert (LOOK1 : forall k v, In (k, v) W1 -> sget W2 k = Some v).
      { intros k v Hk. apply K1 in Hk as Hk'. destruct Hk' as [Hk' Z]. destruct (C1 k v Hk' Z) as (s & Hs). rewrite (S2 k Z), (G2 s k Z (proj1 (T k s) Hs)).
        rewrite <- (H s) by (exact (proj1 (rep_live _ _ _ Hs) Z)). rewrite <- (G1 s k Z Hs). now apply sget_in. }
      assert (LOOK2 : forall k v, In (k, v) W2 -> sget W1 k = Some v).
      { intros k v Hk. apply K2 in Hk as Hk'. destruct Hk' as [Hk' Z]. destruct (C2 k v Hk' Z) as (s & Hs). pose proof (proj2 (T k s) Hs) as Hs1. rewrite (S1 k Z), (G1 s k Z Hs1).
        rewrite (H s) by (exact (proj1 (rep_live _ _ _ Hs1) Z)). rewrite <- (G2 s k Z Hs). now apply sget_in. }
      split.
      + assert (A : (List.length (map fst W1) <= List.length (map fst W2))%nat).
        { apply (inj_len shim_eqb shim_eqb_sym shim_eqb_trans); [now apply distinct_keys|]. intros k Hk. apply in_fst in Hk. destruct Hk as (v & Hk).
          destruct (sget_some _ _ _ (LOOK1 k v Hk)) as (k' & Hk' & Q'). exists k'. split; [apply in_fst; eauto|now apply shim_eqb_sym]. }
        assert (B : (List.length (map fst W2) <= List.length (map fst W1))%nat).
        { apply (inj_len shim_eqb shim_eqb_sym shim_eqb_trans); [now apply distinct_keys|]. intros k Hk. apply in_fst in Hk. destruct Hk as (v & Hk).
          destruct (sget_some _ _ _ (LOOK2 k v Hk)) as (k' & Hk' & Q'). exists k'. split; [apply in_fst; eauto|now apply shim_eqb_sym]. }
        rewrite !map_length in A, B. lia.
      + intros [k v] Hk. cbn [fst snd]. rewrite (LOOK1 k v Hk). destruct (po_eq_dec v v); congruence.
  Qed.

  Lemma normform_ext (R : sdict V) F F' L : (forall w, In w F <-> In w F') -> normform R F L -> normform R F' L.
  Proof.
    intros E (D & G & C0 & Z & N). split; [exact D|]. split; [|split; [|split; [exact Z|exact N]]].
    - intros s k Zk Hc. apply G; [exact Zk|]. eapply cell_ext; [| |exact Hc]; [intros w; symmetry; apply E|intros w _; reflexivity].
    - intros k v Hk Zk. destruct (C0 k v Hk Zk) as (s & Hs). exists s. eapply cell_ext; [| |exact Hs]; [exact E|intros w _; reflexivity].
  Qed.

  Lemma check_ok R1 R2 F1 F2 L1 L2 : all_wc F1 -> all_wc F2 -> NoDup F1 -> NoDup F2 -> (forall w, In w (map fst L1) <-> In w F1) -> (forall w, In w (map fst L2) <-> In w F2) ->
    normform R1 F1 L1 -> normform R2 F2 L2 ->
    (L1 <> [] -> L2 <> [] -> exists b, hs_check_equal ords ordf (R1, F1) (R2, F2) = Ok b /\
      (b = true <-> forall s, ~ dead (pos s (map fst L1 ++ map fst L2)) (neg s (map fst L1 ++ map fst L2)) -> first_of s L1 = first_of s L2)) /\
    (L1 = [] \/ L2 = [] -> hs_check_equal ords ordf (R1, F1) (R2, F2) = Err KeyError).
  Proof.
    intros WF1 WF2 ND1 ND2 HL1 HL2 N1 N2. unfold hs_check_equal. cbn [fst snd].
    assert (MW : forall a b, all_wc a -> all_wc (zminus a b)) by (intros a b W w Hw; apply W; exact (proj1 (proj1 (zminus_in _ _ _) Hw))).
    assert (MN : forall a b, NoDup a -> NoDup (zminus a b)) by (intros a b; apply NoDup_filter).
    destruct (normform_more ords ordf Hords Hordf R1 F1 L1 (zminus F2 F1)) as (W1 & E1 & M1); auto.
    { intros w Hw N. apply (proj1 (zminus_in _ _ _)) in N. tauto. } { intros w. apply HL1. }
    destruct (normform_more ords ordf Hords Hordf R2 F2 L2 (zminus F1 F2)) as (W2 & E2 & M2); auto.
    { intros w Hw N. apply (proj1 (zminus_in _ _ _)) in N. tauto. } { intros w. apply HL2. }
    rewrite E1, E2. cbn [rbind].
    assert (EF1 : forall w, In w (F1 ++ zminus F2 F1) <-> In w (map fst L1 ++ map fst L2)).
    { intros w. rewrite !in_app_iff, zminus_in, HL1, HL2. split; [tauto|]. intros [H|H]; [now left|]. destruct (zin w F1) eqn:Q; [apply zin_in in Q|apply zin_not in Q]; auto. }
    assert (EF2 : forall w, In w (F2 ++ zminus F1 F2) <-> In w (map fst L1 ++ map fst L2)).
    { intros w. rewrite !in_app_iff, zminus_in, HL1, HL2. split; [tauto|]. intros [H|H]; [|now left]. destruct (zin w F2) eqn:Q; [apply zin_in in Q|apply zin_not in Q]; auto. }
    apply (normform_ext _ _ _ _ EF1) in M1. apply (normform_ext _ _ _ _ EF2) in M2. split.
    - intros NL1 NL2. destruct (del_zero W1 _ L1 M1 NL1) as (V1 & D1 & DV1 & K1). destruct (del_zero W2 _ L2 M2 NL2) as (V2 & D2 & DV2 & K2). rewrite D1, D2. cbn [rbind].
      eexists. split; [reflexivity|]. apply (eq_spec W1 W2 (map fst L1 ++ map fst L2) (map fst L1 ++ map fst L2) L1 L2); auto.
      + reflexivity.
      + intros w Hw. apply in_app_iff in Hw. destruct Hw as [Hw|Hw]; [apply WF1, HL1, Hw|apply WF2, HL2, Hw].
      + intros w Hw. apply in_app_iff. auto.
      + intros w Hw. apply in_app_iff. auto.
    - intros H. destruct L1 as [|a L1].
      + destruct M1 as (_ & _ & _ & _ & He). rewrite (He eq_refl). reflexivity.
      + destruct H as [H| ->]; [discriminate|]. destruct (del_zero W1 _ (a :: L1) M1) as (V1 & D1 & _ & _); [discriminate|]. rewrite D1. cbn [rbind].
        destruct M2 as (_ & _ & _ & _ & He). rewrite (He eq_refl). reflexivity.
  Qed.
End Equal.
