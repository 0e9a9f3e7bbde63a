(** Priorities of merged rules, order of the single table, and paths (C37, C39, C40, C24). *)
From Coq Require Import ZifyBool ZifyNat ZifyN.
From Verif Require Import SingleTable SpecPipeline MatchWcProofs MatchProofs ActionProofs ExecProofs ActionSetProofs InstProofs MergeProofs SingleTableProofs.
From Verif Require NormaliseProofs.
Local Open Scope string_scope.
Local Open Scope list_scope.
Local Open Scope Z_scope.
Local Opaque NB WC_FULLWC layout oxm_fields registry_init.

(** ** Sums of scaled priorities are numbers in base 2^16 *)
Local Notation M := MAX_PRIORITY.
Lemma M_pos : 0 < M. Proof. reflexivity. Qed.
Lemma Mpow_pos n : 0 <= n -> 0 < M ^ n. Proof. apply Z.pow_pos_nonneg. apply M_pos. Qed.
Fixpoint value (ds : list Z) : Z := match ds with [] => 0 | d :: t => d * M ^ Z.of_nat (List.length t) + value t end.
Definition digits (ds : list Z) : Prop := Forall (fun d => 0 <= d < M) ds.
Lemma value_bound ds : digits ds -> 0 <= value ds < M ^ Z.of_nat (List.length ds).
Proof.
  induction 1 as [|d ds Hd H IH]; [cbn; lia|]. cbn [value List.length]. rewrite Nat2Z.inj_succ, Z.pow_succ_r by lia.
  assert (P := Mpow_pos (Z.of_nat (List.length ds)) ltac:(lia)). nia.
Qed.
Lemma value_lex a : forall b, List.length a = List.length b -> digits a -> digits b ->
  (value a < value b <-> lex_lt a b) /\ (value a = value b <-> a = b).
Proof.
  induction a as [|x a IH]; intros [|y b] L Ha Hb; cbn [List.length] in L; try discriminate L; [cbn; split; [lia|tauto]|].
  inversion Ha as [|? ? Hx Ha']; subst. inversion Hb as [|? ? Hy Hb']; subst. injection L as L. destruct (IH b L Ha' Hb') as [I1 I2].
  assert (Va := value_bound a Ha'). assert (Vb := value_bound b Hb'). cbn [value lex_lt]. rewrite L in *.
  assert (P := Mpow_pos (Z.of_nat (List.length b)) ltac:(lia)). set (w := M ^ Z.of_nat (List.length b)) in *.
  assert (Q : x < y -> x * w + value a < y * w + value b) by (intros; nia).
  assert (Q' : y < x -> y * w + value b < x * w + value a) by (intros; nia).
  destruct (Z.lt_trichotomy x y) as [C|[C|C]].
  - specialize (Q C). split; [split; [auto|lia]|]. split; [lia|]. intros E. injection E as E _. lia.
  - subst y. split.
    + rewrite <- I1. split; [intros; right; split; [reflexivity|lia]|intros [?|[_ ?]]; lia].
    + split; [intros E; f_equal; apply I2; lia|]. intros E. injection E as E. apply I2 in E. lia.
  - specialize (Q' C). split; [split; [lia|intros [?|[? _]]; lia]|]. split; [lia|]. intros E. injection E as E _. lia.
Qed.
Lemma prio_in_cons r path t : prio_in (r :: path) t = if table (rcore r) =? t then priority (rcore r) else prio_in path t.
Proof. unfold prio_in. cbn [find]. now destruct (_ =? t). Qed.
Lemma prio_in_none path t : (forall r, In r path -> table (rcore r) <> t) -> prio_in path t = 0.
Proof.
  intros H. unfold prio_in. destruct (find _ path) as [r|] eqn:E; [|reflexivity]. apply find_some in E as [E1 E2]. apply Z.eqb_eq in E2. exfalso. eapply H; eauto.
Qed.
Lemma power_skip u ts t : u <> t -> power_of (u :: ts) t = power_of ts t.
Proof. intros H. cbn [power_of]. destruct (Z.eqb_spec u t); [contradiction|reflexivity]. Qed.
Lemma total_value ts : StronglySorted Z.lt ts -> forall (w : Z -> Z) path, increasing path ->
  (forall r, In r path -> In (table (rcore r)) ts) ->
  (forall t, In t ts -> forall k, power_of ts t = Ok k -> w t = M ^ k) ->
  fold_right (fun r s => priority (rcore r) * w (table (rcore r)) + s) 0 path = value (map (prio_in path) ts).
Proof.
  induction 1 as [|u ts Hs IH Hu]; intros w path Hp Hin Hw.
  - destruct path as [|r path]; [reflexivity|]. destruct (Hin r (or_introl eq_refl)).
  - cbn [map value]. rewrite map_length. assert (Hw' : forall t, In t ts -> forall k, power_of ts t = Ok k -> w t = M ^ k).
    { intros t Ht k Hk. apply Hw; [now right|]. rewrite power_skip; [auto|]. rewrite Forall_forall in Hu. specialize (Hu t Ht). lia. }
    assert (Wu : w u = M ^ Z.of_nat (List.length ts)) by (apply Hw; [now left|]; cbn [power_of]; now rewrite Z.eqb_refl).
    destruct path as [|r path].
    + rewrite (prio_in_none []) by (intros ? []). rewrite <- (IH w [] Hp); [reflexivity|intros ? []|auto].
    + inversion Hp as [|? ? Hp' Hr]; subst. destruct (Hin r (or_introl eq_refl)) as [E|E].
      * cbn [fold_right]. rewrite (IH w path Hp'); auto.
        -- rewrite prio_in_cons, <- E, Z.eqb_refl, <- Wu. f_equal. f_equal. apply map_ext_in. intros t Ht. rewrite prio_in_cons.
           destruct (Z.eqb_spec (table (rcore r)) t) as [E'|]; [|reflexivity]. rewrite Forall_forall in Hu. specialize (Hu t Ht). lia.
        -- intros x Hx. destruct (Hin x (or_intror Hx)) as [Q|Q]; [|auto]. rewrite Forall_forall in Hr. specialize (Hr x Hx). lia.
      * rewrite prio_in_none; [|intros x Hx Q]. 
        -- rewrite <- (IH w (r :: path) Hp); auto. intros x Hx. destruct Hx as [<-|Hx]; [auto|]. destruct (Hin x (or_intror Hx)) as [Q|Q]; [|auto].
           rewrite Forall_forall in Hr, Hu. specialize (Hr x Hx). specialize (Hu _ E). lia.
        -- rewrite Forall_forall in Hr, Hu. specialize (Hu _ E). destruct Hx as [<-|Hx]; [lia|]. specialize (Hr x Hx). lia.
Qed.
Lemma sorted_unique ts : forall ts', StronglySorted Z.lt ts -> StronglySorted Z.lt ts' -> (forall t, In t ts <-> In t ts') -> ts = ts'.
Proof.
  induction ts as [|u ts IH]; intros [|v ts'] H1 H2 E; [reflexivity|destruct (proj2 (E v) (or_introl eq_refl))|destruct (proj1 (E u) (or_introl eq_refl))|].
  inversion H1 as [|? ? S1 F1]; subst. inversion H2 as [|? ? S2 F2]; subst. rewrite Forall_forall in F1, F2.
  assert (u = v). { destruct (proj1 (E u) (or_introl eq_refl)) as [Q|Q]; [auto|]. destruct (proj2 (E v) (or_introl eq_refl)) as [Q'|Q']; [auto|]. specialize (F1 v Q'). specialize (F2 u Q). lia. }
  subst v. f_equal. apply IH; auto. intros t. split; intros Ht.
  - destruct (proj1 (E t) (or_intror Ht)) as [<-|Q]; [|auto]. specialize (F1 u Ht). lia.
  - destruct (proj2 (E t) (or_intror Ht)) as [<-|Q]; [|auto]. specialize (F2 u Ht). lia.
Qed.
(** [path'] is [path] after scaling *)
Definition scaled_path (rs rs' path path' : list rule) : Prop := Forall2 (fun r r' => In (r, r') (combine rs rs')) path path'.
Lemma combine_map {A B} (h : A -> B) l x y : In (x, y) (combine l (map h l)) -> In x l /\ y = h x.
Proof.
  induction l as [|a l IH]; cbn [map combine In]; [contradiction|]. intros [E|H]; [injection E as <- <-; auto|]. destruct (IH H). auto.
Qed.
Lemma scaled_total rs rs' ts path path' : scale_ruleset rs = Ok rs' -> (forall r, In r rs -> 0 <= priority (rcore r)) ->
  StronglySorted Z.lt ts -> (forall t, In t ts <-> exists r, In r rs /\ table (rcore r) = t) ->
  increasing path -> scaled_path rs rs' path path' ->
  total_prio path' = value (map (prio_in path) ts) /\ digits (map (prio_in path) ts).
Proof.
  intros Hs H0 St Ht Hi Hp. assert (ts = tables_of rs) by (apply sorted_unique; auto using tables_of_sorted; intros t; now rewrite Ht, tables_of_in). subst ts.
  destruct (scale_ok _ _ Hs) as (w & Hw & -> & Hmax & Hpow).
  assert (Hin : forall r, In r path -> In r rs).
  { intros r Hr. unfold scaled_path in Hp. clear - Hp Hr. induction Hp as [|x y l l' H1 H2 IH]; [destruct Hr|]. destruct Hr as [<-|Hr]; [|auto]. now apply combine_map in H1. }
  split.
  - rewrite <- (total_value _ (tables_of_sorted rs) w path Hi).
    + unfold total_prio. clear - Hp. induction Hp as [|x y l l' H1 H2 IH]; [reflexivity|]. apply combine_map in H1 as [_ ->]. cbn [fold_right rescale rcore with_priority priority]. now rewrite IH.
    + intros r Hr. apply tables_of_in. eauto.
    + intros t Hi' k Hk. destruct (Hpow t Hi') as (k' & E & ->). congruence.
  - unfold digits. apply Forall_map, Forall_forall. intros t _. unfold prio_in. destruct (find _ path) as [r|] eqn:E; [|assert (Q := M_pos); lia].
    apply find_some in E as [E _]. specialize (Hin r E). split; auto.
Qed.

(** ** The order of the single table *)
Lemma fop_app {A} (R : A -> A -> Prop) l1 l2 : ForallOrdPairs R l1 -> ForallOrdPairs R l2 -> (forall x y, In x l1 -> In y l2 -> R x y) -> ForallOrdPairs R (l1 ++ l2).
Proof.
  induction 1 as [|x l H1 H IH]; intros H2 Hc; cbn [app]; [auto|]. constructor.
  - apply Forall_app. split; [auto|]. apply Forall_forall. intros y Hy. apply Hc; [now left|auto].
  - apply IH; auto. intros a b Ha Hb. apply Hc; [now right|auto].
Qed.
Lemma fop_impl {A} (R Q : A -> A -> Prop) l : (forall x y, In x l -> In y l -> R x y -> Q x y) -> ForallOrdPairs R l -> ForallOrdPairs Q l.
Proof.
  intros H F. induction F as [|x l H1 F IH]; [constructor|]. constructor.
  - rewrite Forall_forall in *. intros y Hy. apply H; [now left|now right|auto].
  - apply IH. intros a b Ha Hb. apply H; now right.
Qed.
Lemma fop_perm {A} (R : A -> A -> Prop) : (forall x y, R x y -> R y x) -> forall l l', Permutation l l' -> ForallOrdPairs R l -> ForallOrdPairs R l'.
Proof.
  intros Hs l l' P. induction P; intros F.
  - constructor.
  - inversion F; subst. constructor; [|auto]. now rewrite <- P.
  - inversion F as [|? ? F1 F2]; subst. inversion F1 as [|? ? F3 F4]; subst. inversion F2 as [|? ? F5 F6]; subst. constructor; [constructor; auto|]. constructor; auto.
  - auto.
Qed.
Lemma fop_filter {A} (R : A -> A -> Prop) f l : ForallOrdPairs R l -> ForallOrdPairs R (filter f l).
Proof.
  induction 1 as [|x l H1 F IH]; cbn [filter]; [constructor|]. destruct (f x); [|auto]. constructor; [|auto].
  rewrite Forall_forall in *. intros y Hy. apply filter_In in Hy as [Hy _]. auto.
Qed.
Lemma fop_map {A B} (R : B -> B -> Prop) (h : A -> B) l : ForallOrdPairs (fun x y => R (h x) (h y)) l -> ForallOrdPairs R (map h l).
Proof. induction 1 as [|x l H1 F IH]; cbn [map]; constructor; [|auto]. now apply Forall_map. Qed.
Lemma sorted_fop {A} (R : A -> A -> Prop) l : StronglySorted R l -> ForallOrdPairs R l.
Proof. induction 1; constructor; auto. Qed.
Lemma fop_and {A} (R Q : A -> A -> Prop) l : ForallOrdPairs R l -> ForallOrdPairs Q l -> ForallOrdPairs (fun x y => R x y /\ Q x y) l.
Proof.
  induction 1 as [|x l H1 F IH]; intros H2; [constructor|]. inversion H2 as [|? ? H3 H4]; subst. constructor; [|auto].
  rewrite Forall_forall in *. intros y Hy. split; auto.
Qed.

Section Order.
  Variable ov : rule -> rule -> Prop.
  Definition below (a c : rule) : Prop := c = a \/ exists s, merged a s c.
  Hypothesis ov_below : forall a a' c c', below a c -> below a' c' -> ov c c' -> ov a a'.
  Hypothesis ov_second : forall a s s' c c', merged a s c -> merged a s' c' -> ov c c' -> ov s s'.
  Definition sep (l : list rule) : Prop := ForallOrdPairs (fun x y => ov x y -> prio y < prio x) l.
  Definition mult (k : Z) (l : list rule) : Prop := Forall (fun x => (M ^ k | prio x)) l.

  Lemma block_in a S B c : block a S B -> In c B -> exists s, In s S /\ merged a s c.
  Proof.
    induction 1 as [|b S B N H IH|b c' S B Hm H IH]; intros Hc; [destruct Hc| |].
    - destruct (IH Hc) as (s & Hs & Ms). exists s. split; [now right|auto].
    - destruct Hc as [<-|Hc]; [exists b; split; [now left|auto]|]. destruct (IH Hc) as (s & Hs & Ms). exists s. split; [now right|auto].
  Qed.
  Lemma block_sep a S B : block a S B -> sep S -> sep B.
  Proof.
    unfold sep. induction 1 as [|b S B N H IH|b c S B Hm H IH]; intros HS; inversion HS as [|? ? H1 H2]; subst; [constructor|auto|].
    constructor; [|auto]. apply Forall_forall. intros y Hy Ho. destruct (block_in _ _ _ _ H Hy) as (s & Hs & Ms).
    rewrite Forall_forall in H1. assert (Q := H1 s Hs (ov_second _ _ _ _ _ Hm Ms Ho)).
    assert (E1 := mc_prio _ _ _ (mg_core _ _ _ Hm)). assert (E2 := mc_prio _ _ _ (mg_core _ _ _ Ms)). unfold prio in *. lia.
  Qed.
  Lemma condensed_in t S C R c : condensed t S C R -> In c R -> exists a, In a C /\ (c = a \/ exists s, In s S /\ merged a s c).
  Proof.
    induction 1 as [|a C R G H IH|a C B R G HB H IH]; intros Hc; [destruct Hc| |].
    - destruct Hc as [<-|Hc]; [exists a; split; [now left|auto]|]. destruct (IH Hc) as (x & Hx & Q). exists x. split; [now right|auto].
    - apply in_app_or in Hc as [Hc|Hc].
      + destruct (block_in _ _ _ _ HB Hc) as (s & Hs). exists a. split; [now left|]. right. exists s. exact Hs.
      + destruct (IH Hc) as (x & Hx & Q). exists x. split; [now right|auto].
  Qed.
  Lemma mult_step k (a b : rule) : 0 <= k -> (M ^ k | prio a) -> (M ^ k | prio b) -> prio b < prio a -> prio b + M ^ k <= prio a.
  Proof. intros Hk [x Hx] [y Hy] H. assert (P := Mpow_pos k Hk). rewrite Hx, Hy in *. set (w := M ^ k) in *. assert (y < x) by (apply (Z.mul_lt_mono_pos_r w); auto). nia. Qed.
  Lemma condensed_sep t S C R k : 0 <= k -> condensed t S C R -> mult (k + 1) C -> sep C -> mult k S -> sep S ->
    (forall s, In s S -> 0 <= prio s < M ^ (k + 1)) -> mult k R /\ sep R.
  Proof.
    intros Hk H MC SC MS SS HS. assert (E : M ^ (k + 1) = M * M ^ k) by (rewrite Z.add_1_r, Z.pow_succ_r; auto).
    assert (Dv : forall x, (M ^ (k + 1) | x) -> (M ^ k | x)) by (intros x [y ->]; exists (y * M); rewrite E; ring).
    assert (Hel : forall a c, In a C -> (c = a \/ exists s, In s S /\ merged a s c) -> (M ^ k | prio c) /\ below a c /\ prio a <= prio c < prio a + M ^ (k + 1)).
    { unfold mult in *. rewrite Forall_forall in MC, MS. intros a c Ha [->|(s & Hs & Ms)].
      - split; [apply Dv, MC, Ha|]. split; [now left|]. assert (P := Mpow_pos (k + 1) ltac:(lia)). lia.
      - assert (Ep := mc_prio _ _ _ (mg_core _ _ _ Ms)). fold (prio a) (prio s) (prio c) in Ep. split; [rewrite Ep; apply Z.divide_add_r; [apply Dv, MC, Ha|apply MS, Hs]|].
        split; [right; eauto|]. specialize (HS s Hs). lia. }
    split.
    - apply Forall_forall. intros c Hc. destruct (condensed_in _ _ _ _ _ H Hc) as (a & Ha & Q). apply (Hel a c Ha Q).
    - (* pairs *)
      assert (Cross : forall a a' c c', (ov a a' -> prio a' < prio a) -> In a C -> In a' C -> (c = a \/ exists s, In s S /\ merged a s c) ->
        (c' = a' \/ exists s, In s S /\ merged a' s c') -> ov c c' -> prio c' < prio c).
      { intros a a' c c' Haa Ha Ha' Hc Hc' Ho. destruct (Hel _ _ Ha Hc) as (_ & B1 & L1). destruct (Hel _ _ Ha' Hc') as (_ & B2 & L2).
        specialize (Haa (ov_below _ _ _ _ B1 B2 Ho)). unfold mult in MC. rewrite Forall_forall in MC.
        assert (Q := mult_step (k + 1) a a' ltac:(lia) (MC a Ha) (MC a' Ha') Haa). lia. }
      clear Hel MC. assert (Cr : forall X, incl X C -> forall Y, condensed t S X Y -> sep X -> sep Y); [|apply (Cr C); auto using incl_refl].
      intros X HX Y HY. induction HY as [|a X Y G HY IH|a X B Y G HB HY IH]; intros SX; [constructor| |].
      + inversion SX as [|? ? F1 F2]; subst. constructor; [|apply IH; auto; intros z Hz; apply HX; now right].
        apply Forall_forall. intros c Hc Ho. destruct (condensed_in _ _ _ _ _ HY Hc) as (a' & Ha' & Q). rewrite Forall_forall in F1.
        apply (Cross a a' a c); auto; apply HX; [now left|now right].
      + inversion SX as [|? ? F1 F2]; subst. unfold sep in *. apply fop_app.
        * apply (block_sep _ _ _ HB SS).
        * apply IH; auto. intros z Hz. apply HX. now right.
        * intros c c' Hc Hc' Ho. destruct (block_in _ _ _ _ HB Hc) as (s & Hs). destruct (condensed_in _ _ _ _ _ HY Hc') as (a' & Ha' & Q). rewrite Forall_forall in F1.
          apply (Cross a a' c c'); auto; [apply HX; now left|apply HX; now right|right; eauto].
  Qed.
  Lemma tables_sep o rs3 reg : (forall r, reg_ok r -> rle reg r -> goods r o rs3) -> (forall x, In x rs3 -> 0 <= prio x) -> forall rest C r r' R, reg_ok r -> rle reg r -> goods r o C ->
    mult (Z.of_nat (List.length rest)) C -> sep C ->
    (forall pre t post, rest = pre ++ t :: post -> let S := sort_prio (filter (in_table t) rs3) in
       sep S /\ mult (Z.of_nat (List.length post)) S /\ (forall s, In s S -> prio s < M ^ (Z.of_nat (List.length post) + 1))) ->
    sfold (next_table o rs3) rest C r = (r', Ok R) -> sep R.
  Proof.
    intros G3 Hnn. induction rest as [|t rest IH]; intros C r r' R Hr L GC MC SC HS H; cbn [sfold] in H.
    - unfold sret in H. injection H as <- <-. auto.
    - apply sbind_ok in H as (r1 & C1 & E & H). unfold next_table, single_table_condense in E.
      assert (GS : goods r o (sort_prio (filter (in_table t) rs3))).
      { apply Forall_forall. intros x Hx. apply (Permutation_in x (Permutation_sym (sort_prio_perm _))), filter_In in Hx as [Hx _].
        specialize (G3 r Hr L). unfold goods in G3. rewrite Forall_forall in G3. auto. }
      destruct (condense_ok _ _ _ _ _ _ _ _ Hr GC GS E) as (R1 & L1 & R0 & -> & HR & GR). cbn [app] in *.
      destruct (HS [] t rest eq_refl) as (S1 & S2 & S3). cbn [List.length] in MC. rewrite Nat2Z.inj_succ in MC. unfold Z.succ in MC.
      destruct (condensed_sep t _ C R0 (Z.of_nat (List.length rest)) ltac:(lia) HR MC SC S2 S1) as [M1 S1'].
      { intros s Hs. split; [|auto]. apply Hnn. apply (Permutation_in s (Permutation_sym (sort_prio_perm _))), filter_In in Hs as [Hs _]. auto. }
      apply (IH R0 r1 r' R); auto; [eapply rle_trans; eauto|]. intros pre u post Eq. apply (HS (t :: pre) u post). now rewrite Eq.
  Qed.
End Order.
Lemma power_split pre t post : ~ In t pre -> power_of (pre ++ t :: post) t = Ok (Z.of_nat (List.length post)).
Proof.
  induction pre as [|u pre IH]; intros H; cbn [app power_of]; [now rewrite Z.eqb_refl|]. destruct (Z.eqb_spec u t) as [->|N]; [exfalso; apply H; now left|].
  apply IH. intros Q. apply H. now right.
Qed.
Lemma sorted_notin ts pre t post : StronglySorted Z.lt ts -> ts = pre ++ t :: post -> ~ In t pre.
Proof.
  intros H ->. induction pre as [|u pre IH]; [intros []|]. cbn [app] in H. inversion H as [|? ? H1 H2]; subst. intros [->|Q]; [|now apply (IH H1)].
  rewrite Forall_forall in H2. specialize (H2 t ltac:(apply in_or_app; right; now left)). lia.
Qed.
(** no two rules of a table tie on priority, if related by [ov] *)
Definition no_tie (ov : rule -> rule -> Prop) (a b : rule) : Prop := table (rcore a) = table (rcore b) -> priority (rcore a) = priority (rcore b) -> ~ ov a b.
Lemma fill_no_tie ov ts : forall l, ForallOrdPairs (no_tie ov) l -> ForallOrdPairs (no_tie ov) (fold_left fill_default ts l).
Proof.
  induction ts as [|t ts IH]; intros l H; cbn [fold_left]; [auto|]. apply IH. unfold fill_default. destruct (existsb _ l) eqn:E; [auto|].
  apply fop_app; [auto|constructor; constructor|]. intros x y Hx [<-|[]] T P _. cbn in T, P.
  assert (existsb (fun r => (priority (rcore r) =? 0) && in_table t r) l = true); [|congruence]. apply existsb_exists. exists x. split; [auto|]. unfold in_table. lia.
Qed.
Lemma single_sep (ov : rule -> rule -> Prop) rs o reg r' single :
  (forall a a' c c', below a c -> below a' c' -> ov c c' -> ov a a') ->
  (forall a s s' c c', merged a s c -> merged a s' c' -> ov c c' -> ov s s') ->
  (forall a b, ov a b -> ov b a) -> (forall f g a b, ov (rescale f g a) (rescale f g b) -> ov a b) ->
  reg_ok reg -> Forall (good_rule reg o) rs -> ForallOrdPairs (no_tie ov) rs ->
  to_single_table rs o reg = (r', Ok single) -> sep ov single.
Proof.
  intros Ob Os Osym Ores Hreg Hrs NT H. unfold to_single_table in H. apply sbind_ok in H as (r1 & rs1 & E1 & H). unfold slift in E1. injection E1 as <- E1.
  destruct (scale_ok _ _ E1) as (f & Hf & -> & Hmax & Hpow). unfold to_single_table_scaled in H.
  rewrite tables_of_map in H by reflexivity. destruct (existsb (Z.eqb 0) (tables_of rs)) eqn:E0; cbn [negb] in H; [|discriminate H].
  rewrite set_path_rescale in H.
  match type of H with context [map (rescale f ?g) rs] => set (g0 := g) in * end.
  assert (NT2 : ForallOrdPairs (no_tie ov) (map (rescale f g0) rs)).
  { apply fop_map. revert NT. apply fop_impl. intros x y _ _ Hxy T P Ho. cbn [rescale rcore with_priority table priority] in T, P. apply (Hxy T).
    - rewrite T in P. specialize (Hf (table (rcore y))). nia.
    - eapply Ores; eauto. }
  assert (NT3 := fill_no_tie ov (tables_of rs) _ NT2).
  destruct (fill_defaults (tables_of rs) (map (rescale f g0) rs)) as (F & EF & HF & Hfill). rewrite EF in H, NT3.
  assert (G3 := rs3_goods reg o rs f g0 F Hrs).
  set (rs3 := map (rescale f g0) rs ++ map filler F) in *.
  assert (P3 : forall x, In x rs3 -> exists k, power_of (tables_of rs) (table (rcore x)) = Ok k /\ (M ^ k | prio x) /\ 0 <= prio x < M ^ (k + 1)).
  { intros x Hx. apply in_app_or in Hx as [Hx|Hx]; apply in_map_iff in Hx as (y & <- & Hy).
    - assert (Iy : In (table (rcore y)) (tables_of rs)) by (apply tables_of_in; eauto). destruct (Hpow _ Iy) as (k & Ek & Fk). exists k. split; [exact Ek|].
      unfold prio. cbn [rescale rcore with_priority priority]. rewrite Fk. split; [apply Z.divide_factor_r|]. assert (K := power_nonneg _ _ _ Ek).
      assert (Q := Mpow_pos k K). specialize (Hmax y Hy). rewrite Forall_forall in Hrs. destruct (Hrs y Hy) as (_ & Q0 & _).
      rewrite Z.add_1_r, Z.pow_succ_r by auto. nia.
    - destruct (HF y Hy) as [Iy _]. destruct (Hpow _ Iy) as (k & Ek & Fk). exists k. split; [exact Ek|]. unfold prio. cbn [filler rcore default_core priority].
      split; [apply Z.divide_0_r|]. assert (K := power_nonneg _ _ _ Ek). assert (Q := Mpow_pos (k + 1) ltac:(lia)). lia. }
  assert (St := tables_of_sorted rs).
  assert (HS : forall pre t post, tables_of rs = pre ++ t :: post -> let S := sort_prio (filter (in_table t) rs3) in
       sep ov S /\ mult (Z.of_nat (List.length post)) S /\ (forall s, In s S -> prio s < M ^ (Z.of_nat (List.length post) + 1))).
  { intros pre t post Et. cbv zeta. assert (Hin : forall s, In s (sort_prio (filter (in_table t) rs3)) -> In s rs3 /\ table (rcore s) = t).
    { intros s Hs. apply (Permutation_in s (Permutation_sym (sort_prio_perm _))), filter_In in Hs as [Hs Q]. unfold in_table in Q. split; [auto|lia]. }
    assert (Pw := power_split pre t post (sorted_notin _ _ _ _ St Et)). rewrite <- Et in Pw. split; [|split].
    - unfold sep. assert (Q : ForallOrdPairs (no_tie ov) (sort_prio (filter (in_table t) rs3))).
      { apply (fop_perm (no_tie ov)) with (l := filter (in_table t) rs3); [|apply sort_prio_perm|now apply fop_filter].
        intros x y Hxy T P Ho. apply Hxy; auto. }
      assert (D := sorted_fop _ _ (sort_prio_desc (filter (in_table t) rs3))). assert (QD := fop_and _ _ _ Q D). revert QD. apply fop_impl.
      intros x y Hx Hy [N L] Ho. destruct (Hin x Hx) as [_ Tx]. destruct (Hin y Hy) as [_ Ty]. unfold prio in *. destruct (Z.eq_dec (priority (rcore x)) (priority (rcore y))) as [E|]; [|lia].
      exfalso. apply N; auto. congruence.
    - apply Forall_forall. intros s Hs. destruct (Hin s Hs) as [Is Ts]. destruct (P3 s Is) as (k & Ek & Dk & _). rewrite Ts in Ek. assert (k = Z.of_nat (List.length post)) by congruence. now subst k.
    - intros s Hs. destruct (Hin s Hs) as [Is Ts]. destruct (P3 s Is) as (k & Ek & _ & Lk). rewrite Ts in Ek. assert (k = Z.of_nat (List.length post)) by congruence. subst k. lia. }
  remember (tables_of rs) as ts eqn:Ets. destruct ts as [|t0 rest]; [discriminate H|].
  destruct (HS [] t0 rest eq_refl) as (S1 & S2 & S3).
  apply (tables_sep ov Ob Os o rs3 reg G3) with (rest := rest) (C := sort_prio (filter (in_table t0) rs3)) (r := reg) (r' := r'); auto using rle_refl.
  - intros x Hx. destruct (P3 x Hx) as (k & _ & _ & Q & _). exact Q.
  - apply Forall_forall. intros x Hx. apply (Permutation_in x (Permutation_sym (sort_prio_perm _))), filter_In in Hx as [Hx _].
    specialize (G3 reg Hreg (rle_refl reg)). unfold goods in G3. rewrite Forall_forall in G3. auto.
  - intros pre t post E. apply (HS (t0 :: pre) t post). now rewrite E.
Qed.

(** the rules of the single table stay in the first table *)
Lemma single_facts rs o reg r' single : reg_ok reg -> Forall (good_rule reg o) rs ->
  to_single_table rs o reg = (r', Ok single) -> reg_ok r' /\ goods r' o single /\ Forall (fun c => table (rcore c) = 0) single /\ rle reg r'.
Proof.
  intros Hreg Hrs H. unfold to_single_table in H. apply sbind_ok in H as (r1 & rs1 & E1 & H). unfold slift in E1. injection E1 as <- E1.
  destruct (scale_ok _ _ E1) as (f & Hf & -> & Hmax & Hpow). unfold to_single_table_scaled in H.
  rewrite tables_of_map in H by reflexivity. destruct (existsb (Z.eqb 0) (tables_of rs)) eqn:E0; cbn [negb] in H; [|discriminate H].
  assert (I0 : In 0 (tables_of rs)) by (apply existsb_exists in E0 as (x & Hx & E); apply Z.eqb_eq in E; now subst x).
  rewrite set_path_rescale in H.
  match type of H with context [map (rescale f ?g) rs] => set (g0 := g) in * end.
  destruct (fill_defaults (tables_of rs) (map (rescale f g0) rs)) as (F & EF & HF & Hfill). rewrite EF in H.
  assert (G3 := rs3_goods reg o rs f g0 F Hrs).
  set (rs3 := map (rescale f g0) rs ++ map filler F) in *.
  assert (T0 : exists rest, tables_of rs = 0 :: rest).
  { assert (St := tables_of_sorted rs). destruct (tables_of rs) as [|t ts] eqn:Et; [destruct I0|]. exists ts. f_equal.
    inversion St as [|? ? _ Hlt]; subst. destruct I0 as [->|I0]; [reflexivity|]. rewrite Forall_forall in Hlt. specialize (Hlt 0 I0).
    assert (It : In t (tables_of rs)) by (rewrite Et; now left). apply tables_of_in in It as (r & Hr & Tr). rewrite Forall_forall in Hrs.
    destruct (Hrs r Hr) as (_ & _ & Q & _). lia. }
  destruct T0 as (rest & T0). rewrite T0 in H.
  assert (I3 : forall t x, In x (sort_prio (filter (in_table t) rs3)) -> In x rs3 /\ table (rcore x) = t).
  { intros t x Hx. apply (Permutation_in x (Permutation_sym (sort_prio_perm _))), filter_In in Hx as [Hx Q]. unfold in_table in Q. split; [auto|lia]. }
  assert (Gen : forall rest C r, reg_ok r -> rle reg r -> goods r o C -> Forall (fun c => table (rcore c) = 0) C -> sfold (next_table o rs3) rest C r = (r', Ok single) ->
    reg_ok r' /\ goods r' o single /\ Forall (fun c => table (rcore c) = 0) single /\ rle reg r').
  { clear H T0 rest. induction rest as [|t rest IH]; intros C r Hr L GC TC H; cbn [sfold] in H.
    - unfold sret in H. injection H as <- <-. auto.
    - apply sbind_ok in H as (r1 & C1 & E & H). unfold next_table, single_table_condense in E.
      assert (GS : goods r o (sort_prio (filter (in_table t) rs3))).
      { apply Forall_forall. intros x Hx. apply I3 in Hx as [Hx _]. specialize (G3 r Hr L). unfold goods in G3. rewrite Forall_forall in G3. auto. }
      destruct (condense_ok _ _ _ _ _ _ _ _ Hr GC GS E) as (R1 & L1 & R0 & -> & HR & GR). cbn [app] in *.
      apply (IH R0 r1); auto; [eapply rle_trans; eauto|]. apply Forall_forall. intros c Hc. rewrite Forall_forall in TC.
      destruct (condensed_in _ _ _ _ _ HR Hc) as (a & Ha & [->|(s & Hs & Ms)]); [auto|]. rewrite (mc_table _ _ _ (mg_core _ _ _ Ms)). auto. }
  apply (Gen rest (sort_prio (filter (in_table 0) rs3)) reg); auto using rle_refl.
  - apply Forall_forall. intros x Hx. apply I3 in Hx as [Hx _]. specialize (G3 reg Hreg (rle_refl reg)). unfold goods in G3. rewrite Forall_forall in G3. auto.
  - apply Forall_forall. intros x Hx. now apply I3 in Hx.
Qed.
Lemma single_tables rs o reg r' single : reg_ok reg -> Forall (good_rule reg o) rs ->
  to_single_table rs o reg = (r', Ok single) -> reg_ok r' /\ goods r' o single /\ Forall (fun c => table (rcore c) = 0) single.
Proof. intros Hr Hg H. destruct (single_facts rs o reg r' single Hr Hg H) as (H1 & H2 & H3 & _). auto. Qed.
Lemma single_rle rs o reg r' single : reg_ok reg -> Forall (good_rule reg o) rs -> to_single_table rs o reg = (r', Ok single) -> rle reg r'.
Proof. intros Hr Hg H. now destruct (single_facts rs o reg r' single Hr Hg H) as (_ & _ & _ & L). Qed.
Lemma good_rules_mono r r' o l : rle r r' -> Forall (good_rule r o) l -> Forall (good_rule r' o) l.
Proof. intros L. apply Forall_impl. intros x (H1 & H2). split; [now apply (good_mono r)|auto]. Qed.

(** sorting a list in which overlapping rules are in order of priority *)
Lemma sep_sort_first reg l p o : NormaliseProofs.rules_ok reg l -> Forall (fun c => table (rcore c) = 0) l -> sep overlap l ->
  first_match l p o -> first_match (Normalise.sort_ruleset l) p o.
Proof.
  intros Hok Ht Hs H. assert (HP := NormaliseProofs.sort_perm l). assert (HS := NormaliseProofs.sort_sorted l).
  assert (Hok' : NormaliseProofs.rules_ok reg (Normalise.sort_ruleset l)) by (intros x Hx; apply Hok, (Permutation_in x HP Hx)).
  destruct (NormaliseProofs.first_match_total reg _ p Hok') as [o' Ho']. replace o with o'; [auto|]. rewrite Forall_forall in Ht.
  destruct o as [c|]; destruct o' as [y|]; [| | |reflexivity].
  - f_equal. apply fm_split in H as (l1 & l2 & -> & Ac & L1). apply fm_split in Ho' as (m1 & m2 & Em & Ay & L2). rewrite Em in *.
    assert (Iy : In y (l1 ++ c :: l2)) by (apply (Permutation_in y HP), in_or_app; right; now left).
    assert (Ic : In c (m1 ++ y :: m2)) by (apply (Permutation_in c (Permutation_sym HP)), in_or_app; right; now left).
    assert (Ty := Ht y Iy). assert (Tc := Ht c ltac:(apply in_or_app; right; now left)).
    apply in_app_or in Iy as [Iy|[<-|Iy]]; [destruct (L1 y Iy Ay)|reflexivity|]. apply in_app_or in Ic as [Ic|[Ec|Ic]]; [destruct (L2 c Ic Ac)|auto|]. exfalso.
    assert (Q : sep overlap (c :: l2)) by (clear - Hs; induction l1 as [|z l1 IH]; [exact Hs|inversion Hs; subst; auto]).
    inversion Q as [|? ? Q1 Q2]; subst. rewrite Forall_forall in Q1. assert (Lt : prio y < prio c) by (apply (Q1 y Iy); exists p; auto).
    assert (Q' : StronglySorted NormaliseProofs.key_le (y :: m2)) by (clear - HS; induction m1 as [|z m1 IH]; [exact HS|inversion HS; subst; auto]).
    inversion Q' as [|? ? _ F]; subst. rewrite Forall_forall in F. specialize (F c Ic). unfold NormaliseProofs.key_le, prio in *. lia.
  - exfalso. apply NormaliseProofs.first_match_in in H as [Ic Ac]. rewrite fm_none_iff in Ho'. apply (Ho' c); [|auto]. apply (Permutation_in c (Permutation_sym HP) Ic).
  - exfalso. apply NormaliseProofs.first_match_in in Ho' as [Iy Ay]. rewrite fm_none_iff in H. apply (H y); [|auto]. apply (Permutation_in y HP Iy).
Qed.
Lemma below_accepts a c p : below a c -> rule_accepts c p -> rule_accepts a p.
Proof. intros [->|(s & Ms)] H; [auto|]. apply (mc_match _ _ _ (mg_core _ _ _ Ms)) in H as [H _]. exact H. Qed.
Lemma single_sep_overlap rs o reg r' single : reg_ok reg -> Forall (good_rule reg o) rs -> ForallOrdPairs (no_tie overlap) rs ->
  to_single_table rs o reg = (r', Ok single) -> sep overlap single.
Proof.
  apply single_sep.
  - intros a a' c c' B B' (p & A & A'). exists p. split; eapply below_accepts; eauto.
  - intros a s s' c c' Ms Ms' (p & A & A'). apply (mc_match _ _ _ (mg_core _ _ _ Ms)) in A as [_ A]. apply (mc_match _ _ _ (mg_core _ _ _ Ms')) in A' as [_ A']. eexists. split; eauto.
  - intros a b (p & A & B). exists p. auto.
  - intros f g a b H. exact H.
Qed.
Lemma single_sep_all rs o reg r' single : reg_ok reg -> Forall (good_rule reg o) rs -> ForallOrdPairs (no_tie (fun _ _ => True)) rs ->
  to_single_table rs o reg = (r', Ok single) -> StronglySorted (fun a b => priority (rcore b) < priority (rcore a)) single.
Proof.
  intros H1 H2 H3 H4. assert (H := single_sep (fun _ _ => True) rs o reg r' single ltac:(auto) ltac:(auto) ltac:(auto) ltac:(auto) H1 H2 H3 H4).
  clear - H. induction H as [|x l F H IH]; constructor; auto. eapply Forall_impl; [|exact F]. intros y Q. now apply Q.
Qed.
Lemma sorted_fixed l : Forall (fun c => table (rcore c) = 0) l -> StronglySorted (fun a b => priority (rcore b) < priority (rcore a)) l -> Normalise.sort_ruleset l = l.
Proof.
  intros Ht Hs. induction Hs as [|x l Hs IH F]; [reflexivity|]. inversion Ht as [|? ? T1 T2]; subst. cbn [Normalise.sort_ruleset fold_right]. fold (Normalise.sort_ruleset l). rewrite (IH T2).
  destruct l as [|y l]; [reflexivity|]. cbn [Normalise.insert_rule]. rewrite (proj2 (NormaliseProofs.key_leb_spec x y)); [reflexivity|].
  inversion F as [|? ? Q _]; subst. inversion T2 as [|? ? T3 _]; subst. unfold NormaliseProofs.key_le. lia.
Qed.
