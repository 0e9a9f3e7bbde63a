(** Proofs about merged rules and the conversion to a single table (C34-C40). *)
From Coq Require Import ZifyBool ZifyNat ZifyN.
From Verif Require Import SingleTable SpecPipeline MatchWcProofs MatchProofs ActionProofs ExecProofs ActionSetProofs InstProofs MergeProofs.
From Verif Require NormaliseProofs.
Local Open Scope string_scope.
Local Open Scope list_scope.
Local Open Scope Z_scope.
Ltac Zify.zify_post_hook ::= Z.div_mod_to_equations.
Local Opaque NB WC_FULLWC layout oxm_fields registry_init.

(** ** Metadata *)
Lemma rmeta_merge m1 m2 k : rmeta (merge_metadata m1 m2) k = ov (rmeta m2 k) (rmeta m1 k).
Proof.
  destruct m1 as [[v1 k1]|], m2 as [[v2 k2]|]; cbn [merge_metadata rmeta ov]; try reflexivity.
  - unfold rset. destruct k2 as [k2|].
    + assert (B : forall j, 0 <= j -> Z.testbit (Z.lor (Z.land v1 (Z.lnot k2)) (Z.land v2 k2)) j = if Z.testbit k2 j then Z.testbit v2 j else Z.testbit v1 j).
      { intros j Hj. rewrite Z.lor_spec, !Z.land_spec, Z.lnot_spec by auto. destruct (Z.testbit k2 j), (Z.testbit v1 j), (Z.testbit v2 j); reflexivity. }
      destruct k1 as [k1|]; cbn [rmeta]; unfold rset; (destruct (slot_at k) as [s|] eqn:Es; [|reflexivity]); apply slot_at_in in Es as [_ Es];
        (destruct (String.eqb (sl_name s) "METADATA"); cbn [andb]; [|reflexivity]); cbn [mask_bit]; rewrite B by lia;
        [rewrite Z.lor_spec; destruct (Z.testbit k2 (k - sl_off s)), (Z.testbit k1 (k - sl_off s)); reflexivity|].
      destruct (Z.testbit k2 (k - sl_off s)); reflexivity.
    + cbn [rmeta]. unfold rset. destruct (slot_at k) as [s|]; [|reflexivity]. destruct (String.eqb (sl_name s) "METADATA"); reflexivity.
  - destruct (rset "METADATA" v2 k2 k); reflexivity.
Qed.

(** ** Instructions of a merged rule *)
Definition inst_wf (i : instructions) : Prop := inst_ok i /\ set_inv (write_actions i) (orig_order (write_actions i)).
Definition plain_inst (i : instructions) : Prop := plain_acts (orig_order (apply_actions i)).
Lemma set_inv_self s ws : set_inv s ws -> set_inv s (orig_order s).
Proof. intros H. eapply set_inv_weq; [exact H|]. apply weq_sym. now apply set_inv_orig. Qed.
Lemma inst_wf_of i xs ws : al_of xs = Ok (apply_actions i) -> as_of ws = Ok (write_actions i) -> inst_wf i.
Proof.
  intros H1 H2. apply al_of_ok in H1. apply as_of_inv in H2. split; [|now apply set_inv_self in H2]. unfold inst_ok. destruct H1 as [E H1]. split; [auto|]. now rewrite E.
Qed.
(** [c] does what [a] and then [b] do *)
Record seq_inst (a b c : instructions) : Prop := mkSeq {
  sq_apply : teq (orig_order (apply_actions a) ++ orig_order (apply_actions b)) (orig_order (apply_actions c));
  sq_write : weq ((if clear_actions b then [] else orig_order (write_actions a)) ++ orig_order (write_actions b)) (orig_order (write_actions c));
  sq_goto : goto_table c = goto_table b;
  sq_clear : clear_actions c = clear_actions a || clear_actions b;
  sq_rw : plain_inst a -> plain_inst b -> forall k, rinst c k = ov (rinst b k) (rinst a k) }.
Lemma orig_teq_plain l l' : teq l l' -> plain_acts l -> plain_acts l'. Proof. apply teq_plain. Qed.
Lemma merge_inst a b i : inst_wf a -> inst_wf b -> inst_merge a b = Ok i ->
  let c := with_metadata i (merge_metadata (write_metadata a) (write_metadata b)) in
  inst_wf c /\ seq_inst a b c /\ meter c = None.
Proof.
  intros [Aa Wa] [Ab Wb] H. unfold inst_ok in Aa, Ab. unfold inst_merge in H. apply rbind_ok in H as (w & Hw & H). apply rbind_ok in H as (l & Hl & H).
  injection H as <-. cbv zeta. unfold with_metadata. cbn [goto_table apply_actions write_actions clear_actions meter].
  destruct (al_add_ok _ _ _ _ _ Aa Ab Hl) as [Al Tl]. assert (El := proj1 Al).
  assert (Iw : set_inv w ((if clear_actions b then [] else orig_order (write_actions a)) ++ orig_order (write_actions b))).
  { destruct (clear_actions b); [injection Hw as <-; auto|]. eapply as_add_inv; eauto. }
  split; [|split; [|reflexivity]].
  - split; [|now apply set_inv_self in Iw]. unfold inst_ok. cbn [apply_actions]. now rewrite El.
  - constructor; cbn [goto_table apply_actions write_actions clear_actions write_metadata]; auto.
    + now rewrite El.
    + apply weq_sym. now apply set_inv_orig.
    + intros Pa Pb k. unfold rinst. cbn [write_metadata apply_actions]. rewrite El, rmeta_merge, <- (teq_racts _ _ Tl), racts_app, racts_acc.
      destruct (rmeta (write_metadata b) k) as [x|] eqn:Eb; cbn [ov]; [reflexivity|].
      destruct (rmeta (write_metadata a) k) as [x|] eqn:Ea; cbn [ov]; [|reflexivity].
      assert (N : racts (orig_order (apply_actions b)) none_rw k = None).
      { unfold rmeta in Ea. destruct (write_metadata a) as [[v mk]|]; [|discriminate]. unfold rset in Ea. destruct (slot_at k) as [s|] eqn:Es; [|discriminate].
        destruct (String.eqb_spec (sl_name s) "METADATA") as [Em|]; [|discriminate]. eapply racts_meta; eauto. }
      now rewrite N.
Qed.
Lemma seq_header a b c p : seq_inst a b c -> plain_inst a -> plain_inst b -> forall k, inst_header c p k = inst_header b (inst_header a p) k.
Proof.
  intros H Pa Pb k. rewrite !inst_header_rw. unfold apply_rw. rewrite (sq_rw _ _ _ H Pa Pb). destruct (rinst b k); cbn [ov]; [reflexivity|].
  rewrite inst_header_rw. reflexivity.
Qed.
Lemma seq_plain a b c : seq_inst a b c -> plain_inst a -> plain_inst b -> plain_inst c.
Proof. intros H Pa Pb. unfold plain_inst. eapply teq_plain; [apply (sq_apply _ _ _ H)|]. apply Forall_app. auto. Qed.

(** ** First matches *)
Lemma fm_app_l l1 l2 p r : first_match l1 p (Some r) -> first_match (l1 ++ l2) p (Some r).
Proof.
  remember (Some r) as o. intros H. induction H; [discriminate| |]; cbn [app].
  - injection Heqo as ->. now apply fm_hit.
  - apply fm_miss; auto.
Qed.
Lemma fm_app_r l1 l2 p o : (forall x, In x l1 -> ~ rule_accepts x p) -> first_match l2 p o -> first_match (l1 ++ l2) p o.
Proof. induction l1 as [|x l1 IH]; intros H1 H2; cbn [app]; auto. apply fm_miss; [apply H1; now left|]. apply IH; auto. intros y Hy. apply H1. now right. Qed.
Lemma fm_none_iff l p : first_match l p None <-> forall x, In x l -> ~ rule_accepts x p.
Proof.
  split.
  - remember None as o. intros H. induction H; [intros x []|discriminate|]. intros x [<-|Hx]; auto.
  - intros H. rewrite <- (app_nil_r l). apply fm_app_r; [auto|constructor].
Qed.
Lemma fm_split l p r : first_match l p (Some r) -> exists l1 l2, l = l1 ++ r :: l2 /\ rule_accepts r p /\ forall x, In x l1 -> ~ rule_accepts x p.
Proof.
  remember (Some r) as o. intros H. induction H; [discriminate| |].
  - injection Heqo as ->. exists [], rs. split; [reflexivity|]. split; [auto|]. intros x [].
  - destruct (IHfirst_match Heqo) as (l1 & l2 & -> & Ha & Hl). exists (r0 :: l1), l2. split; [reflexivity|]. split; [auto|]. intros x [<-|Hx]; auto.
Qed.
Lemma fm_ext l p q o : (forall i, p i = q i) -> first_match l p o -> first_match l q o.
Proof.
  intros E H. induction H; [constructor| |].
  - apply fm_hit. now apply (maccepts_ext _ p).
  - apply fm_miss; [|now apply IHfirst_match]. intros A. apply H. apply (maccepts_ext _ q); auto.
Qed.

(** ** Sorting by priority *)
Definition prio (r : rule) : Z := priority (rcore r).
Definition desc (l : list rule) : Prop := StronglySorted (fun a b => prio b <= prio a) l.
Lemma insert_prio_perm r l : Permutation (r :: l) (insert_prio r l).
Proof.
  induction l as [|x l IH]; cbn [insert_prio]; [constructor; constructor|]. destruct (_ <=? _); [reflexivity|].
  rewrite perm_swap. now constructor.
Qed.
Lemma sort_prio_perm l : Permutation l (sort_prio l).
Proof. induction l as [|x l IH]; [constructor|]. cbn [sort_prio fold_right]. rewrite <- insert_prio_perm. now constructor. Qed.
Lemma insert_prio_desc r l : desc l -> desc (insert_prio r l).
Proof.
  unfold desc. induction 1 as [|x l Hl IH Hx]; cbn [insert_prio]; [repeat constructor|]. destruct (Z.leb_spec (priority (rcore x)) (priority (rcore r))) as [E|E].
  - constructor; [now constructor|]. constructor; [exact E|]. eapply Forall_impl; [|exact Hx]. unfold prio. cbn. intros a Ha. lia.
  - constructor; [exact IH|]. rewrite <- insert_prio_perm. constructor; [unfold prio; lia|exact Hx].
Qed.
Lemma sort_prio_desc l : desc (sort_prio l).
Proof. induction l as [|x l IH]; [constructor|]. cbn [sort_prio fold_right]. now apply insert_prio_desc. Qed.

(** the first match after sorting is the rule of highest priority, the earliest among equals *)
Definition best (l : list rule) (p : packet) (r : rule) : Prop :=
  exists l1 l2, l = l1 ++ r :: l2 /\ rule_accepts r p /\
  (forall x, In x l1 -> rule_accepts x p -> prio x < prio r) /\ (forall x, In x l2 -> rule_accepts x p -> prio x <= prio r).
Lemma insert_first a l p r : desc l -> first_match (insert_prio a l) p (Some r) ->
  (r = a /\ rule_accepts a p /\ forall x, In x l -> rule_accepts x p -> prio x <= prio a) \/
  (first_match l p (Some r) /\ (rule_accepts a p -> prio a < prio r)).
Proof.
  unfold desc. induction 1 as [|x l Hl IH Hx]; cbn [insert_prio]; intros H.
  - inversion H as [|? ? ? A|? ? ? ? N F]; subst; [|inversion F]. left. split; [auto|]. split; [auto|]. intros y [].
  - destruct (Z.leb_spec (priority (rcore x)) (priority (rcore a))) as [E|E].
    + inversion H as [|? ? ? A|? ? ? ? N F]; subst; [|right; split; [exact F|contradiction]]. left. split; [auto|]. split; [auto|].
      intros y [<-|Hy] _; [exact E|]. rewrite Forall_forall in Hx. apply Hx in Hy. unfold prio in *. lia.
    + inversion H as [|? ? ? A|? ? ? ? N F]; subst.
      * right. split; [now apply fm_hit|]. intros _. unfold prio. lia.
      * apply IH in F as [(-> & A & L)|(F & L)].
        -- left. split; [auto|]. split; [auto|]. intros y [<-|Hy]; auto. contradiction.
        -- right. split; auto. now apply fm_miss.
Qed.
Lemma sort_best l p r : first_match (sort_prio l) p (Some r) -> best l p r.
Proof.
  revert r. induction l as [|a l IH]; intros r H; [inversion H|]. cbn [sort_prio fold_right] in H.
  apply insert_first in H as [(-> & A & L)|(F & L)]; [| |apply sort_prio_desc].
  - exists [], l. split; [reflexivity|]. split; [auto|]. split; [intros x []|]. intros x Hx. apply L. apply (Permutation_in x (sort_prio_perm l)), Hx.
  - apply IH in F as (l1 & l2 & -> & A & L1 & L2). exists (a :: l1), l2. split; [reflexivity|]. split; [auto|]. split; [|auto].
    intros x [<-|Hx]; auto.
Qed.

(** ** Condensing two tables *)
Definition no_inner (m : Match) : Prop := existsb ends_in_digit (mkeys m) = false.
Definition good (r : registry) (openflow : bool) (c : core) : Prop :=
  match_ok r (rmatch c) /\ inst_wf (inst c) /\ plain_inst (inst c) /\ (openflow = true -> no_inner (rmatch c)).
Lemma good_mono r r' o c : rle r r' -> good r o c -> good r' o c.
Proof. intros L (H1 & H2). split; [|auto]. eapply match_ok_mono; eauto. Qed.
Lemma cbit_mhas m i s : slot_at i = Some s -> cbit m i <> None -> mhas m (sl_name s) = true.
Proof. intros E H. rewrite (cbit_eq _ _ _ E) in H. unfold mhas. destruct (mget m (sl_name s)); [reflexivity|]. exfalso. now apply H. Qed.

Record merged_core (a b c : core) : Prop := mkMC {
  mc_match : forall p, maccepts (rmatch c) p <-> both a b p;
  mc_inst : seq_inst (inst a) (inst b) (inst c);
  mc_table : table c = table a;
  mc_prio : priority c = priority a + priority b;
  mc_meter : meter (inst c) = None }.
Lemma core_merge_ok r a b o : reg_ok r -> good r o a -> good r o b ->
  exists r', reg_ok r' /\ rle r r' /\
  (((~ exists p, both a b p) /\ core_merge a b o r = (r', Err MergeExceptionNoOverlap)) \/
   ((exists p, both a b p) /\
    ((exists e, inst_merge (inst a) (inst b) = Err e /\ core_merge a b o r = (r', Err e)) \/
     (exists c, core_merge a b o r = (r', Ok c) /\ merged_core a b c /\ good r' o c)))).
Proof.
  intros Hr (Ma & Ia & Pa & Da) (Mb & Ib & Pb & Db).
  destruct (core_merge_plain r a b o Hr Ma Mb (proj1 Ia) Pa) as (r' & R' & L' & [H|(m & p0 & Hp0 & Hm & Hacc & Hkeys & E)]); exists r'.
  - split; [auto|]. split; [auto|]. now left.
  - split; [auto|]. split; [auto|]. right. split; [eauto|]. unfold finish_merge in E. destruct (inst_merge (inst a) (inst b)) as [i|e] eqn:Ei; cbn [rbind] in E.
    + right. assert (D : o = true -> no_inner m).
      { intros Ho. unfold no_inner. destruct (existsb ends_in_digit (mkeys m)) eqn:Ed; [|reflexivity]. exfalso.
        apply existsb_exists in Ed as (n & Hn & Ed). apply mhas_keys in Hn. destruct (Hkeys n Hn) as (k & s & Es & En & [Hc|[_ Hc]]);
          apply (cbit_mhas _ _ _ Es) in Hc; rewrite En in Hc; apply mhas_keys in Hc.
        - specialize (Da Ho). unfold no_inner in Da. assert (existsb ends_in_digit (mkeys (rmatch a)) = true) by (apply existsb_exists; eauto). congruence.
        - specialize (Db Ho). unfold no_inner in Db. assert (existsb ends_in_digit (mkeys (rmatch b)) = true) by (apply existsb_exists; eauto). congruence. }
      assert (Ed : o && existsb ends_in_digit (mkeys m) = false) by (destruct o; [exact (D eq_refl)|reflexivity]).
      rewrite Ed in E. eexists. split; [exact E|]. destruct (merge_inst _ _ _ Ia Ib Ei) as (W & Q & Mt).
      split; [constructor; cbn [rmatch inst table priority]; auto|].
      split; [exact Hm|]. split; [exact W|]. split; [eapply seq_plain; eauto|exact D].
    + left. exists e. auto.
Qed.

Record merged (a b c : rule) : Prop := mkMerged { mg_core : merged_core (rcore a) (rcore b) (rcore c); mg_path : path c = path a ++ path b }.
Definition goods (r : registry) (o : bool) (l : list rule) : Prop := Forall (fun x => good r o (rcore x)) l.
Lemma goods_mono r r' o l : rle r r' -> goods r o l -> goods r' o l.
Proof. intros L. apply Forall_impl. intros x. now apply good_mono. Qed.
Inductive block (a : rule) : list rule -> list rule -> Prop :=
| bl_nil : block a [] []
| bl_skip b S B : (~ exists p, both (rcore a) (rcore b) p) -> block a S B -> block a (b :: S) B
| bl_merge b c S B : merged a b c -> block a S B -> block a (b :: S) (c :: B).
(** merging instructions raises no MergeException *)
Definition clean {A} (x : result A) : Prop := forall e, x = Err e -> is_merge_exn e = false.
Lemma clean_ok {A} (x : A) : clean (Ok x). Proof. intros e H. discriminate H. Qed.
Lemma clean_err {A} e : is_merge_exn e = false -> @clean A (Err e). Proof. intros H e' [= <-]. exact H. Qed.
Lemma clean_bind {A B} (x : result A) (f : A -> result B) : clean x -> (forall a, clean (f a)) -> clean (rbind x f).
Proof. intros Hx Hf. destruct x as [a|e]; cbn [rbind]; [apply Hf|]. intros e' [= <-]. now apply Hx. Qed.
Lemma clean_fold {A B} (f : B -> A -> result B) : (forall b x, clean (f b x)) -> forall l b, clean (rfold f l b).
Proof. intros Hf. induction l as [|x l IH]; intros b; cbn [rfold]; [apply clean_ok|]. apply clean_bind; auto. Qed.
Ltac cleans := repeat first [match goal with |- clean (rbind _ _) => apply clean_bind; [|intros] end | apply clean_ok | apply clean_err; reflexivity
  | match goal with |- clean (match ?x with _ => _ end) => destruct x end].
Lemma clean_depends a b : clean (depends a b).
Proof. unfold depends, to_type, action_dependancies. cleans. Qed.
Lemma clean_insort v i : clean (insort v i).
Proof.
  unfold insort. apply clean_bind; [|intros; apply clean_ok].
  assert (G : forall n lo hi, clean (bisect n v i lo hi)); [|apply G].
  induction n as [|n IH]; intros lo hi; cbn [bisect]; cleans; auto.
  unfold act_lt. cleans.
Qed.
Lemma clean_levels L i : clean (levels_append L i).
Proof.
  unfold levels_append. apply clean_bind.
  - assert (D : forall v, clean (any_dep v i)) by (induction v as [|x v IH]; cbn [any_dep]; cleans; auto using clean_depends).
    assert (G : forall l b, clean (deepest L i l b)); [|apply G]. induction L as [|v L IH]; intros l b; cbn [deepest]; cleans; auto.
  - intros k. revert k. induction L as [|v L IH]; intros [|k]; cbn [insert_at]; cleans; auto using clean_insort.
Qed.
Lemma clean_append l i : clean (al_append l i).
Proof. unfold al_append. cleans. apply clean_levels. Qed.
Lemma clean_set_append l i : clean (as_append l i).
Proof.
  unfold as_append. apply clean_bind.
  - induction (al_iter l) as [|x r IH]; cbn [set_find]; cleans; auto.
  - intros f. cleans.
    + generalize (@nil (nat * action)). induction (orig_order l ++ [i]) as [|x r IH]; intros acc; cbn [set_sort]; cleans; auto.
    + apply clean_fold. intros. apply clean_levels.
Qed.
Lemma inst_merge_exn a b e : inst_merge a b = Err e -> is_merge_exn e = false.
Proof.
  enough (C : clean (inst_merge a b)) by (apply C). unfold inst_merge. cleans.
  - apply clean_fold. intros. apply clean_set_append.
  - apply clean_fold. intros. apply clean_append.
Qed.
Lemma block_ok o a : forall S res r r' out, reg_ok r -> good r o (rcore a) -> goods r o S ->
  sfold (condense_pair o a) S res r = (r', Ok out) ->
  reg_ok r' /\ rle r r' /\ exists B, out = res ++ B /\ block a S B /\ goods r' o B.
Proof.
  induction S as [|b S IH]; intros res r r' out Hr Ga GS H; cbn [sfold] in H.
  - injection H as <- <-. split; [auto|]. split; [apply rle_refl|]. exists []. rewrite app_nil_r. split; [auto|]. split; [constructor|constructor].
  - inversion GS as [|? ? Gb GS']; subst. apply sbind_ok in H as (r1 & acc & E & H). unfold condense_pair in E.
    destruct (core_merge_ok r (rcore a) (rcore b) o Hr Ga Gb) as (r2 & R2 & L2 & [[N Em]|[Y [(e & Ee & Em)|(c & Em & Mc & Gc)]]]); rewrite Em in E.
    + cbn [is_merge_exn] in E. injection E as <- <-.
      destruct (IH _ _ _ _ R2 (good_mono _ _ _ _ L2 Ga) (goods_mono _ _ _ _ L2 GS') H) as (R3 & L3 & B & -> & HB & GB).
      split; [auto|]. split; [eapply rle_trans; eauto|]. exists B. split; [auto|]. split; [now constructor|auto].
    + rewrite (inst_merge_exn _ _ _ Ee) in E. discriminate E.
    + injection E as <- <-.
      destruct (IH _ _ _ _ R2 (good_mono _ _ _ _ L2 Ga) (goods_mono _ _ _ _ L2 GS') H) as (R3 & L3 & B & -> & HB & GB).
      split; [auto|]. split; [eapply rle_trans; eauto|]. eexists (_ :: B). rewrite <- app_assoc. split; [reflexivity|]. split; [|constructor; [|exact GB]].
      * apply bl_merge; [|auto]. constructor; [exact Mc|reflexivity].
      * eapply good_mono; [exact L3|exact Gc].
Qed.

Inductive condensed (t : Z) (S : list rule) : list rule -> list rule -> Prop :=
| cd_nil : condensed t S [] []
| cd_keep a C R : goto_table (inst (rcore a)) <> Some t -> condensed t S C R -> condensed t S (a :: C) (a :: R)
| cd_merge a C B R : goto_table (inst (rcore a)) = Some t -> block a S B -> condensed t S C R -> condensed t S (a :: C) (B ++ R).
Lemma goto_eqb g t : opt_eqb Z.eqb g (Some t) = true <-> g = Some t.
Proof. destruct g as [x|]; cbn; [rewrite Z.eqb_eq; split; congruence|split; discriminate]. Qed.
Lemma condense_ok o t S : forall C res r r' out, reg_ok r -> goods r o C -> goods r o S ->
  sfold (condense_rule o S t) C res r = (r', Ok out) ->
  reg_ok r' /\ rle r r' /\ exists R, out = res ++ R /\ condensed t S C R /\ goods r' o R.
Proof.
  induction C as [|a C IH]; intros res r r' out Hr GC GS H; cbn [sfold] in H.
  - injection H as <- <-. split; [auto|]. split; [apply rle_refl|]. exists []. rewrite app_nil_r. split; [auto|]. split; [constructor|constructor].
  - inversion GC as [|? ? Ga GC']; subst. apply sbind_ok in H as (r1 & acc & E & H). unfold condense_rule in E.
    destruct (opt_eqb Z.eqb (goto_table (inst (rcore a))) (Some t)) eqn:Eg.
    + apply goto_eqb in Eg. apply (block_ok o a _ _ _ _ _ Hr Ga GS) in E as (R1 & L1 & B & -> & HB & GB).
      destruct (IH _ _ _ _ R1 (goods_mono _ _ _ _ L1 GC') (goods_mono _ _ _ _ L1 GS) H) as (R2 & L2 & R & -> & HR & GR).
      split; [auto|]. split; [eapply rle_trans; eauto|]. exists (B ++ R). rewrite app_assoc. split; [reflexivity|]. split; [now apply cd_merge|].
      apply Forall_app. split; [eapply goods_mono; eauto|auto].
    + assert (Ng : goto_table (inst (rcore a)) <> Some t) by (intros Q; apply goto_eqb in Q; congruence).
      unfold sret in E. injection E as <- <-. destruct (IH _ _ _ _ Hr GC' GS H) as (R2 & L2 & R & -> & HR & GR).
      split; [auto|]. split; [auto|]. exists (a :: R). rewrite <- app_assoc. split; [reflexivity|]. split; [now apply cd_keep|].
      constructor; [|auto]. eapply good_mono; eauto.
Qed.

Lemma block_accepts a S B p c : block a S B -> In c B -> rule_accepts c p -> rule_accepts a p.
Proof.
  induction 1 as [|b S B N H IH|b c' S B Hm H IH]; intros Hi Ha; [destruct Hi|auto|].
  destruct Hi as [<-|Hi]; [|auto]. apply (mc_match _ _ _ (mg_core _ _ _ Hm)) in Ha as [Ha _]. exact Ha.
Qed.
Lemma block_first a S B p s : block a S B -> rule_accepts a p -> first_match S (inst_header (inst (rcore a)) p) (Some s) ->
  exists c, first_match B p (Some c) /\ merged a s c.
Proof.
  intros H Ha. induction H as [|b S B N H IH|b c' S B Hm H IH]; intros F; [inversion F| |].
  - inversion F as [|? ? ? A|? ? ? ? A F']; subst; [|auto]. exfalso. apply N. exists p. split; auto.
  - inversion F as [|? ? ? A|? ? ? ? A F']; subst.
    + exists c'. split; [|auto]. apply fm_hit. apply (mc_match _ _ _ (mg_core _ _ _ Hm)). split; auto.
    + destruct (IH F') as (c & Fc & Mc). exists c. split; [|auto]. apply fm_miss; [|auto]. intros Q. apply A.
      apply (mc_match _ _ _ (mg_core _ _ _ Hm)) in Q as [_ Q]. exact Q.
Qed.
Lemma block_none a S B p : block a S B -> (rule_accepts a p -> forall s, In s S -> ~ rule_accepts s (inst_header (inst (rcore a)) p)) ->
  forall c, In c B -> ~ rule_accepts c p.
Proof.
  induction 1 as [|b S B N H IH|b c' S B Hm H IH]; intros Hn c Hc Ha; [destruct Hc| |].
  - apply (IH (fun A s Hs => Hn A s (or_intror Hs)) c Hc Ha).
  - destruct Hc as [<-|Hc].
    + apply (mc_match _ _ _ (mg_core _ _ _ Hm)) in Ha as [A1 A2]. apply (Hn A1 b (or_introl eq_refl) A2).
    + apply (IH (fun A s Hs => Hn A s (or_intror Hs)) c Hc Ha).
Qed.
Lemma condensed_first t S C R p a : condensed t S C R -> first_match C p (Some a) ->
  (goto_table (inst (rcore a)) <> Some t -> first_match R p (Some a)) /\
  (forall s, goto_table (inst (rcore a)) = Some t -> first_match S (inst_header (inst (rcore a)) p) (Some s) ->
     exists c, first_match R p (Some c) /\ merged a s c).
Proof.
  intros H. induction H as [|a' C R G H IH|a' C B R G HB H IH]; intros F; [inversion F| |].
  - inversion F as [|? ? ? A|? ? ? ? A F']; subst.
    + split; [intros _; now apply fm_hit|]. intros s Hg. contradiction.
    + destruct (IH F') as [I1 I2]. split; [intros Q; apply fm_miss; auto|]. intros s Hg Fs. destruct (I2 s Hg Fs) as (c & Fc & Mc).
      exists c. split; [now apply fm_miss|auto].
  - inversion F as [|? ? ? A|? ? ? ? A F']; subst.
    + split; [contradiction|]. intros s _ Fs. destruct (block_first _ _ _ _ _ HB A Fs) as (c & Fc & Mc). exists c. split; [now apply fm_app_l|auto].
    + assert (N : forall x, In x B -> ~ rule_accepts x p) by (intros x Hx Ax; apply A; eapply block_accepts; eauto).
      destruct (IH F') as [I1 I2]. split; [intros Q; apply fm_app_r; auto|]. intros s Hg Fs. destruct (I2 s Hg Fs) as (c & Fc & Mc).
      exists c. split; [now apply fm_app_r|auto].
Qed.

(** ** Tables and scaling *)
Lemma insert_table_in t u l : In u (insert_table t l) <-> u = t \/ In u l.
Proof.
  induction l as [|x l IH]; cbn [insert_table In]; [intuition|]. destruct (Z.ltb_spec t x); cbn [In]; [intuition|].
  destruct (Z.eqb_spec t x) as [->|]; cbn [In]; [intuition|]. rewrite IH. intuition.
Qed.
Lemma insert_table_sorted t l : StronglySorted Z.lt l -> StronglySorted Z.lt (insert_table t l).
Proof.
  induction 1 as [|x l Hl IH Hx]; cbn [insert_table]; [repeat constructor|]. destruct (Z.ltb_spec t x) as [E|E].
  - constructor; [now constructor|]. constructor; [auto|]. eapply Forall_impl; [|exact Hx]. intros; lia.
  - destruct (Z.eqb_spec t x) as [->|N]; [now constructor|]. constructor; [auto|]. apply Forall_forall. intros u Hu. apply insert_table_in in Hu as [->|Hu]; [lia|].
    rewrite Forall_forall in Hx. auto.
Qed.
Lemma tables_of_in rs t : In t (tables_of rs) <-> exists r, In r rs /\ table (rcore r) = t.
Proof.
  induction rs as [|x rs IH]; cbn [tables_of fold_right].
  - split; [intros []|intros (r & [] & _)].
  - rewrite insert_table_in. fold (tables_of rs). rewrite IH. split.
    + intros [->|(r & Hr & E)]; [exists x; split; [now left|auto]|exists r; split; [now right|auto]].
    + intros (r & [<-|Hr] & E); [left; auto|right; eauto].
Qed.
Lemma tables_of_sorted rs : StronglySorted Z.lt (tables_of rs).
Proof. induction rs as [|x rs IH]; cbn [tables_of fold_right]; [constructor|]. now apply insert_table_sorted. Qed.
Lemma tables_of_map (h : rule -> rule) rs : (forall r, table (rcore (h r)) = table (rcore r)) -> tables_of (map h rs) = tables_of rs.
Proof. intros H. induction rs as [|x rs IH]; [reflexivity|]. cbn [map tables_of fold_right]. fold (tables_of rs). fold (tables_of (map h rs)). now rewrite IH, H. Qed.
Lemma power_nonneg ts t k : power_of ts t = Ok k -> 0 <= k.
Proof. induction ts as [|u ts IH]; cbn [power_of]; [discriminate|]. destruct (u =? t); [intros [= <-]; lia|auto]. Qed.

(** [s] is [r] up to a positive factor of its priority, depending on the table only *)
Definition rescale (f : Z -> Z) (g : rule -> list core) (r : rule) : rule := mkRule (with_priority (rcore r) (priority (rcore r) * f (table (rcore r)))) (g r).
Lemma scale_ok rs rs' : scale_ruleset rs = Ok rs' -> exists f, (forall t, 0 < f t) /\ rs' = map (rescale f path) rs /\
  (forall r, In r rs -> priority (rcore r) < MAX_PRIORITY) /\
  (forall t, In t (tables_of rs) -> exists k, power_of (tables_of rs) t = Ok k /\ f t = MAX_PRIORITY ^ k).
Proof.
  intros H. unfold scale_ruleset in H. set (ts := tables_of rs) in *.
  exists (fun t => match power_of ts t with Ok k => MAX_PRIORITY ^ k | Err _ => 1 end). split.
  { intros t. destruct (power_of ts t) as [k|] eqn:E; [|lia]. apply power_nonneg in E. apply Z.pow_pos_nonneg; [reflexivity|auto]. }
  assert (Ht : forall t, In t ts -> exists k, power_of ts t = Ok k).
  { intros t. clear. induction ts as [|u ts IH]; cbn [power_of In]; [contradiction|]. destruct (Z.eqb_spec u t); [eauto|]. intros [Q|Q]; [contradiction|auto]. }
  split; [|split].
  - clear Ht. revert rs' H. generalize ts. induction rs as [|r rs IH]; intros ts0 rs' H; cbn [map rall] in H; [injection H as <-; reflexivity|].
    apply rbind_ok in H as (x & Hx & H). apply rbind_ok in H as (xs & Hxs & H). injection H as <-. cbn [map]. f_equal; [|now apply IH].
    unfold scale_rule in Hx. destruct (_ <=? _); [discriminate|]. apply rbind_ok in Hx as (k & Hk & Hx). injection Hx as <-. unfold rescale. now rewrite Hk.
  - clear Ht. revert rs' H. generalize ts. induction rs as [|r rs IH]; intros ts0 rs' H x Hx; [destruct Hx|]. cbn [map rall] in H.
    apply rbind_ok in H as (y & Hy & H). apply rbind_ok in H as (xs & Hxs & H). destruct Hx as [<-|Hx]; [|eapply IH; eauto].
    unfold scale_rule in Hy. destruct (Z.leb_spec MAX_PRIORITY (priority (rcore r))); [discriminate|auto].
  - intros t Hi. destruct (Ht t Hi) as (k & E). exists k. now rewrite E.
Qed.
Lemma set_path_rescale f rs : map set_path (map (rescale f path) rs) =
  map (rescale f (fun r => match path r with [] => [with_priority (rcore r) (priority (rcore r) * f (table (rcore r)))] | q => q end)) rs.
Proof. rewrite map_map. apply map_ext. intros r. unfold set_path, rescale. cbn [path rcore]. now destruct (path r). Qed.

(** ** The rule hit in a table *)
Lemma sorted_hit t l p s : first_match (sort_prio (filter (in_table t) l)) p (Some s) -> table_hit l t p s.
Proof.
  revert s. induction l as [|a l IH]; intros s H; [inversion H|]. cbn [filter] in H. unfold in_table at 1 in H.
  destruct (Z.eqb_spec (table (rcore a)) t) as [E|E].
  - cbn [sort_prio fold_right] in H. apply insert_first in H as [(-> & A & L)|(F & L)]; [| |apply sort_prio_desc].
    + exists [], l. split; [reflexivity|]. split; [auto|]. split; [auto|]. split; [intros x []|]. intros x Hx Ht Hacc. apply L; [|auto].
      apply (Permutation_in x (sort_prio_perm _)), filter_In. split; [auto|]. unfold in_table. now apply Z.eqb_eq.
    + apply IH in F as (l1 & l2 & -> & T & A & L1 & L2). exists (a :: l1), l2. split; [reflexivity|]. split; [auto|]. split; [auto|]. split; [|auto].
      intros x [<-|Hx] Ht Hacc; [now apply L|auto].
  - apply IH in H as (l1 & l2 & -> & T & A & L1 & L2). exists (a :: l1), l2. split; [reflexivity|]. split; [auto|]. split; [auto|]. split; [|auto].
    intros x [<-|Hx] Ht Hacc; [contradiction|auto].
Qed.
Lemma rescale_accepts f g r p : rule_accepts (rescale f g r) p <-> rule_accepts r p. Proof. reflexivity. Qed.
Lemma map_split {A B} (h : A -> B) l l1 s l2 : map h l = l1 ++ s :: l2 -> exists m1 r m2, l = m1 ++ r :: m2 /\ l1 = map h m1 /\ s = h r /\ l2 = map h m2.
Proof.
  revert l1. induction l as [|x l IH]; intros [|y l1] H; cbn in H; try discriminate H.
  - injection H as <- <-. exists [], x, l. auto.
  - injection H as <- H. destruct (IH _ H) as (m1 & r & m2 & -> & -> & -> & ->). exists (x :: m1), r, m2. auto.
Qed.
Lemma app_split {A} (a b l1 : list A) s l2 : a ++ b = l1 ++ s :: l2 ->
  (exists m, a = l1 ++ s :: m /\ l2 = m ++ b) \/ (exists m, b = m ++ s :: l2 /\ l1 = a ++ m).
Proof.
  revert l1. induction a as [|x a IH]; intros l1 H; cbn [app] in H; [right; exists l1; auto|].
  destruct l1 as [|y l1]; cbn [app] in H; injection H as <- H.
  - left. exists a. auto.
  - destruct (IH _ H) as [(m & -> & ->)|(m & -> & ->)]; [left; exists m; auto|right; exists m; auto].
Qed.
(** the rules after scaling and filling in defaults *)
Definition filler (t : Z) : rule := mkRule (default_core t) [default_core t].
Lemma fill_defaults ts : forall l, exists F, fold_left fill_default ts l = l ++ map filler F /\
  (forall t, In t F -> In t ts /\ forall x, In x l -> table (rcore x) = t -> priority (rcore x) <> 0) /\
  (forall t, In t ts -> exists x, In x (l ++ map filler F) /\ table (rcore x) = t /\ priority (rcore x) = 0).
Proof.
  induction ts as [|t ts IH]; intros l; cbn [fold_left].
  - exists []. rewrite app_nil_r. split; [reflexivity|]. split; intros t [].
  - unfold fill_default at 2. destruct (existsb _ l) eqn:E.
    + destruct (IH l) as (F & E1 & H1 & H2). exists F. split; [auto|]. split.
      * intros u Hu. destruct (H1 u Hu). split; [now right|auto].
      * intros u [<-|Hu]; [|auto]. apply existsb_exists in E as (x & Hx & E). exists x. split; [apply in_or_app; now left|]. unfold in_table in E. lia.
    + fold (filler t). destruct (IH (l ++ [filler t])) as (F & E1 & H1 & H2). exists (t :: F). rewrite E1, <- app_assoc. split; [reflexivity|]. split.
      * intros u [<-|Hu].
        -- split; [now left|]. intros x Hx Ht Hp. assert (existsb (fun r => (priority (rcore r) =? 0) && in_table t r) l = true); [|congruence].
           apply existsb_exists. exists x. split; [auto|]. unfold in_table. lia.
        -- destruct (H1 u Hu) as [H3 H4]. split; [now right|]. intros x Hx. apply H4. apply in_or_app. now left.
      * intros u [<-|Hu].
        -- exists (filler t). split; [apply in_or_app; right; now left|]. auto.
        -- destruct (H2 u Hu) as (x & Hx & Q). exists x. split; [|auto]. now rewrite <- app_assoc in Hx.
Qed.
Lemma filled_hit f g F rs t q s : (forall u, 0 < f u) -> (forall r, In r rs -> 0 <= priority (rcore r)) ->
  (forall u, In u F -> forall x, In x (map (rescale f g) rs) -> table (rcore x) = u -> priority (rcore x) <> 0) ->
  table_hit (map (rescale f g) rs ++ map filler F) t q s ->
  (exists r, s = rescale f g r /\ table_hit rs t q r) \/ (s = filler t /\ table_miss rs t q).
Proof.
  intros Hf Hp HF (l1 & l2 & E & Ht & Ha & L1 & L2). apply app_split in E as [(m & E & ->)|(m & E & ->)].
  - left. apply map_split in E as (m1 & r & m2 & -> & -> & -> & ->). exists r. split; [reflexivity|]. exists m1, m2. split; [reflexivity|].
    split; [exact Ht|]. split; [exact Ha|]. cbn [rescale rcore with_priority table priority] in *. split.
    + intros x Hx Tx Ax. assert (Q := L1 (rescale f g x) (in_map _ _ _ Hx) Tx Ax). cbn in Q. rewrite Tx, Ht in Q. specialize (Hf t). nia.
    + intros x Hx Tx Ax. assert (Q := L2 (rescale f g x) (in_or_app _ _ _ (or_introl (in_map _ _ _ Hx))) Tx Ax). cbn in Q. rewrite Tx, Ht in Q. specialize (Hf t). nia.
  - right. apply map_split in E as (m1 & u & m2 & E & -> & -> & ->). cbn [filler rcore default_core table] in Ht. subst u. split; [reflexivity|].
    intros x Hx Tx Ax. assert (Q := L1 (rescale f g x) (in_or_app _ _ _ (or_introl (in_map _ _ _ Hx))) Tx Ax).
    cbn in Q. specialize (Hf (table (rcore x))). specialize (Hp x Hx). nia.
Qed.

(** ** The single table follows the pipeline *)
Definition good_rule (reg : registry) (o : bool) (r : rule) : Prop :=
  good reg o (rcore r) /\ 0 <= priority (rcore r) /\ 0 <= table (rcore r) /\
  (forall t, goto_table (inst (rcore r)) = Some t -> table (rcore r) < t).
(** a table with a rule of priority 0 (so no default is added) matches every packet *)
Definition total_tables (rs : list rule) : Prop :=
  forall r, In r rs -> priority (rcore r) = 0 -> forall p, exists x, In x rs /\ table (rcore x) = table (rcore r) /\ rule_accepts x p.

Definition tracks (rs : list rule) (done : list Z) (p : packet) (c : rule) : Prop :=
  exists app ws q, teq app (orig_order (apply_actions (inst (rcore c)))) /\ weq ws (orig_order (write_actions (inst (rcore c)))) /\
  (forall i, q i = inst_header (inst (rcore c)) p i) /\
  match goto_table (inst (rcore c)) with
  | Some t => ~ In t done /\ forall miss a w, pipeline rs t q app ws miss a w -> pipeline rs 0 p [] [] miss a w
  | None => exists miss, pipeline rs 0 p [] [] miss app ws
  end.

Lemma hit_ext rs t p q r : (forall i, p i = q i) -> table_hit rs t p r -> table_hit rs t q r.
Proof.
  intros E (l1 & l2 & -> & T & A & L1 & L2). assert (E' : forall i, q i = p i) by (intros; now rewrite E).
  exists l1, l2. split; [reflexivity|]. split; [auto|]. split; [now apply (maccepts_ext _ p)|].
  split; intros x Hx Tx Ax; [apply L1|apply L2]; auto; now apply (maccepts_ext _ q).
Qed.
Lemma miss_ext rs t p q : (forall i, p i = q i) -> table_miss rs t p -> table_miss rs t q.
Proof. intros E H x Hx Tx Ax. apply (H x Hx Tx). apply (maccepts_ext _ q); auto. Qed.

Lemma set_list_weq ws ws' o : weq ws ws' -> set_list ws o -> set_list ws' o.
Proof. intros H (N & W & O). split; [auto|]. split; [|auto]. intros a. rewrite W. apply H. Qed.
Lemma header_ext i p q k : (forall j, p j = q j) -> inst_header i p k = inst_header i q k.
Proof. intros H. rewrite !inst_header_rw. unfold apply_rw. now rewrite H. Qed.
Lemma empty_header p k : inst_header inst_empty p k = p k.
Proof. reflexivity. Qed.
Lemma weq_nil_l ws (b : bool) : weq ((if b then [] else []) ++ ws) ws.
Proof. destruct b; apply weq_refl. Qed.

Section Main.
  Variables (reg : registry) (o : bool) (rs : list rule) (f : Z -> Z) (g : rule -> list core) (F : list Z).
  Hypothesis Hrs : Forall (good_rule reg o) rs.
  Hypothesis Htot : total_tables rs.
  Hypothesis Hf : forall u, 0 < f u.
  Let rs2 := map (rescale f g) rs.
  Let rs3 := rs2 ++ map filler F.
  Hypothesis HF : forall u, In u F -> forall x, In x rs2 -> table (rcore x) = u -> priority (rcore x) <> 0.
  Hypothesis Hfill : forall t, In t (tables_of rs) -> exists x, In x rs3 /\ table (rcore x) = t /\ priority (rcore x) = 0.

  Lemma inst_empty_wf : inst_wf inst_empty. Proof. apply inst_wf_of with (xs := []) (ws := []); reflexivity. Qed.
  Lemma rs3_goods r : reg_ok r -> rle reg r -> goods r o rs3.
  Proof.
    intros Hr L. apply Forall_app. split.
    - unfold rs2. apply Forall_map. eapply Forall_impl; [|exact Hrs]. intros x (G & _). apply (good_mono _ _ _ _ L). exact G.
    - apply Forall_map, Forall_forall. intros t _. split; [apply match_new_ok|]. split; [apply inst_empty_wf|]. split; [constructor|]. intros _. reflexivity.
  Qed.
  Lemma table_first t q : In t (tables_of rs) ->
    exists s, first_match (sort_prio (filter (in_table t) rs3)) q (Some s) /\ In s rs3 /\
      ((exists r, s = rescale f g r /\ table_hit rs t q r) \/ (s = filler t /\ table_miss rs t q)).
  Proof.
    intros Ht. assert (Hok : NormaliseProofs.rules_ok reg (sort_prio (filter (in_table t) rs3))).
    { intros x Hx. apply (Permutation_in x (Permutation_sym (sort_prio_perm _))), filter_In in Hx as [Hx _].
      apply in_app_or in Hx as [Hx|Hx]; apply in_map_iff in Hx as (y & <- & Hy).
      - rewrite Forall_forall in Hrs. destruct (Hrs y Hy) as ((M & _) & _). exact M.
      - apply match_new_ok. }
    destruct (NormaliseProofs.first_match_total reg _ q Hok) as [[s|] Hs].
    - exists s. split; [auto|]. assert (Hit := sorted_hit _ _ _ _ Hs). split; [destruct Hit as (l1 & l2 & E & _); rewrite E; apply in_or_app; right; now left|].
      apply (filled_hit f g F); auto. intros r Hr. rewrite Forall_forall in Hrs. now destruct (Hrs r Hr) as (_ & Q & _).
    - exfalso. rewrite fm_none_iff in Hs. assert (N : forall x, In x rs3 -> table (rcore x) = t -> ~ rule_accepts x q).
      { intros x Hx Tx. apply Hs. apply (Permutation_in x (sort_prio_perm _)), filter_In. split; [auto|]. unfold in_table. lia. }
      destruct (Hfill t Ht) as (x & Hx & Tx & Px). apply in_app_or in Hx as [Hx|Hx].
      + apply in_map_iff in Hx as (r & <- & Hr). cbn [rescale rcore with_priority table priority] in *.
        assert (P0 : priority (rcore r) = 0) by (specialize (Hf (table (rcore r))); nia).
        destruct (Htot r Hr P0 q) as (y & Hy & Ty & Ay). apply (N (rescale f g y)); [apply in_or_app; left; now apply in_map| |exact Ay].
        cbn [rescale rcore with_priority table]. congruence.
      + assert (Hx' := Hx). apply in_map_iff in Hx' as (u & <- & Hu). apply (N (filler u)); [apply in_or_app; now right|auto|].
        intros it Hit. destruct Hit.
  Qed.
  Lemma filler_insts t : inst (rcore (filler t)) = inst_empty. Proof. reflexivity. Qed.
  Lemma hit_good t q r : table_hit rs t q r -> good_rule reg o r.
  Proof. intros (l1 & l2 & E & _). rewrite Forall_forall in Hrs. apply Hrs. rewrite E. apply in_or_app. right. now left. Qed.

  Definition follows (done : list Z) (r : registry) (C : list rule) : Prop :=
    reg_ok r /\ rle reg r /\ goods r o C /\ forall p, exists c, first_match C p (Some c) /\ tracks rs done p c.

  Lemma start_follows : reg_ok reg -> In 0 (tables_of rs) -> follows [0] reg (sort_prio (filter (in_table 0) rs3)).
  Proof.
    intros Hr H0. split; [auto|]. split; [apply rle_refl|]. split.
    - apply Forall_forall. intros x Hx. apply (Permutation_in x (Permutation_sym (sort_prio_perm _))), filter_In in Hx as [Hx _].
      assert (G := rs3_goods reg Hr (rle_refl reg)). unfold goods in G. rewrite Forall_forall in G. auto.
    - intros p. destruct (table_first 0 p H0) as (s & Fs & _ & [(r & -> & Hit)|(-> & Miss)]); eexists; (split; [exact Fs|]).
      + destruct (hit_good _ _ _ Hit) as (_ & _ & _ & Hg). unfold tracks. change (inst (rcore (rescale f g r))) with (inst (rcore r)).
        exists (applied_after (inst (rcore r)) []), (writes_after (inst (rcore r)) []), (inst_header (inst (rcore r)) p).
        split; [apply te_refl|]. split; [apply weq_nil_l|]. split; [reflexivity|].
        destruct (goto_table (inst (rcore r))) as [t|] eqn:Eg.
        * split.
          -- intros [<-|[]]. specialize (Hg 0 eq_refl). destruct Hit as (l1 & l2 & _ & T & _). lia.
          -- intros miss a w Ho. eapply pl_goto; eauto.
        * exists false. eapply pl_stop; eauto.
      + unfold tracks. rewrite filler_insts. exists [], [], p. split; [apply te_refl|]. split; [apply weq_refl|]. split; [reflexivity|].
        cbn [goto_table inst_empty]. exists true. now apply pl_miss.
  Qed.
  Lemma step_follows done t r C r' R : follows done r C -> In t (tables_of rs) -> (forall u, In u done -> u < t) ->
    next_table o rs3 C t r = (r', Ok R) -> follows (done ++ [t]) r' R.
  Proof.
    intros (Hr & L & GC & HC) Ht Hd H. unfold next_table, single_table_condense in H.
    assert (G3 := rs3_goods r Hr L).
    assert (GS : goods r o (sort_prio (filter (in_table t) rs3))).
    { apply Forall_forall. intros x Hx. apply (Permutation_in x (Permutation_sym (sort_prio_perm _))), filter_In in Hx as [Hx _]. unfold goods in G3. rewrite Forall_forall in G3. auto. }
    destruct (condense_ok _ _ _ _ _ _ _ _ Hr GC GS H) as (R' & L' & R0 & -> & HR & GR). cbn [app].
    split; [auto|]. split; [eapply rle_trans; eauto|]. split; [auto|]. intros p. destruct (HC p) as (c & Fc & app & ws & q & Ta & Ww & Eq & Hgo).
    destruct (condensed_first _ _ _ _ p c HR Fc) as [Keep Mrg]. destruct (goto_table (inst (rcore c))) as [u|] eqn:Eg.
    - destruct Hgo as [Nd Hgo]. destruct (Z.eq_dec u t) as [->|Ne].
      + destruct (table_first t q Ht) as (s & Fs & Is & Hs). apply (fm_ext _ _ _ _ Eq) in Fs. destruct (Mrg s eq_refl Fs) as (m & Fm & Mm).
        exists m. split; [auto|]. assert (Sq := mc_inst _ _ _ (mg_core _ _ _ Mm)).
        apply NormaliseProofs.first_match_in in Fc as [Ic _]. unfold goods in GC. rewrite Forall_forall in GC. destruct (GC c Ic) as (_ & _ & Pc & _).
        assert (Ps : plain_inst (inst (rcore s))) by (unfold goods in G3; rewrite Forall_forall in G3; apply (G3 s Is)).
        assert (Hdr : forall i, inst_header (inst (rcore s)) q i = inst_header (inst (rcore m)) p i).
        { intros i. rewrite (seq_header _ _ _ p Sq Pc Ps). now apply header_ext. }
        assert (Tapp : teq (applied_after (inst (rcore s)) app) (orig_order (apply_actions (inst (rcore m))))).
        { eapply te_trans; [|apply (sq_apply _ _ _ Sq)]. unfold applied_after. apply ateq_app; [auto|apply te_refl]. }
        assert (Twr : weq (writes_after (inst (rcore s)) ws) (orig_order (write_actions (inst (rcore m))))).
        { eapply weq_trans; [|apply (sq_write _ _ _ Sq)]. unfold writes_after. apply weq_app; [|apply weq_refl]. destruct (clear_actions _); [apply weq_refl|auto]. }
        exists (applied_after (inst (rcore s)) app), (writes_after (inst (rcore s)) ws), (inst_header (inst (rcore s)) q).
        split; [exact Tapp|]. split; [exact Twr|]. split; [exact Hdr|]. rewrite (sq_goto _ _ _ Sq). destruct Hs as [(x & -> & Hit)|(-> & Miss)].
        * destruct (hit_good _ _ _ Hit) as (_ & _ & _ & Hg). change (inst (rcore (rescale f g x))) with (inst (rcore x)). destruct (goto_table (inst (rcore x))) as [v|] eqn:Ev.
          -- split.
             ++ intros Hv. specialize (Hg v eq_refl). destruct Hit as (l1 & l2 & _ & T & _). apply in_app_or in Hv as [Hv|[<-|[]]]; [|lia]. specialize (Hd v Hv). lia.
             ++ intros miss a w Ho. apply Hgo. eapply pl_goto; eauto.
          -- exists false. apply Hgo. eapply pl_stop; eauto.
        * rewrite filler_insts in *. cbn [goto_table inst_empty]. exists true. apply Hgo.
          unfold applied_after, writes_after in *. cbn [apply_actions write_actions clear_actions inst_empty orig_order al_empty] in *. rewrite !app_nil_r.
          now apply pl_miss.
      + assert (Ng : Some u <> Some t) by congruence. specialize (Keep Ng). exists c. split; [auto|]. exists app, ws, q. split; [auto|]. split; [auto|]. split; [auto|].
        rewrite Eg. split; [|auto]. intros Hu. apply in_app_or in Hu as [Hu|[Hu|[]]]; [auto|congruence].
    - assert (Ng : None <> Some t) by congruence. specialize (Keep Ng). exists c. split; [auto|]. exists app, ws, q. split; [auto|]. split; [auto|]. split; [auto|].
      now rewrite Eg.
  Qed.
  Lemma steps_follow rest : forall done r C r' R, follows done r C -> StronglySorted Z.lt (done ++ rest) -> (forall t, In t rest -> In t (tables_of rs)) ->
    sfold (next_table o rs3) rest C r = (r', Ok R) -> follows (done ++ rest) r' R.
  Proof.
    induction rest as [|t rest IH]; intros done r C r' R HC Hs Hin H; cbn [sfold] in H.
    - unfold sret in H. injection H as <- <-. now rewrite app_nil_r.
    - apply sbind_ok in H as (r1 & C1 & E & H). replace (done ++ t :: rest) with ((done ++ [t]) ++ rest) in * by (now rewrite <- app_assoc).
      apply (IH _ r1 C1); [|exact Hs| |exact H].
      + eapply step_follows; eauto; [apply Hin; now left|]. intros u Hu. clear - Hs Hu. rewrite <- app_assoc in Hs. induction done as [|x d IHd]; [destruct Hu|].
        cbn [app] in Hs. inversion Hs as [|? ? H1 H2]; subst. destruct Hu as [->|Hu]; [|auto]. rewrite Forall_forall in H2. apply H2. apply in_or_app. right. now left.
      + intros u Hu. apply Hin. now right.
  Qed.
  Lemma follows_end done r C p : follows done r C -> (forall t, In t (tables_of rs) -> In t done) ->
    exists c app ws, first_match C p (Some c) /\ good r o (rcore c) /\ teq app (orig_order (apply_actions (inst (rcore c)))) /\ weq ws (orig_order (write_actions (inst (rcore c)))) /\
    exists miss, pipeline rs 0 p [] [] miss app ws.
  Proof.
    intros (_ & _ & GC & HC) Hd. destruct (HC p) as (c & Fc & app & ws & q & Ta & Ww & Eq & Hgo). exists c, app, ws. split; [auto|]. split.
    { apply NormaliseProofs.first_match_in in Fc as [Ic _]. unfold goods in GC. rewrite Forall_forall in GC. auto. }
    split; [auto|]. split; [auto|]. destruct (goto_table (inst (rcore c))) as [t|]; [|auto]. destruct Hgo as [Nt Hgo]. exists true. apply Hgo.
    apply pl_miss. intros x Hx Tx _. apply Nt, Hd, tables_of_in. eauto.
  Qed.
End Main.

(** ** The pipeline is deterministic, up to the order within an action set *)
Lemma split_cases {A} (l1 l2 m1 m2 : list A) r s : l1 ++ r :: l2 = m1 ++ s :: m2 ->
  (l1 = m1 /\ r = s /\ l2 = m2) \/ (In r m1 /\ In s l2) \/ (In s l1 /\ In r m2).
Proof.
  revert m1. induction l1 as [|x l1 IH]; intros [|y m1] E; cbn [app] in E; injection E as E1 E2.
  - auto.
  - right. left. subst. split; [now left|]. apply in_or_app. right. now left.
  - right. right. subst. split; [now left|]. apply in_or_app. right. now left.
  - subst y. destruct (IH _ E2) as [(-> & -> & ->)|[[H1 H2]|[H1 H2]]]; [auto|right; left; split; [now right|auto]|right; right; split; [now right|auto]].
Qed.
Lemma hit_unique rs t p r s : table_hit rs t p r -> table_hit rs t p s -> r = s.
Proof.
  intros (l1 & l2 & E & T & A & L1 & L2) (m1 & m2 & E' & T' & A' & M1 & M2). rewrite E in E'.
  destruct (split_cases _ _ _ _ _ _ E') as [(_ & -> & _)|[[H1 H2]|[H1 H2]]]; [reflexivity| |]; exfalso.
  - specialize (M1 r H1 T A). specialize (L2 s H2 T' A'). lia.
  - specialize (L1 s H1 T' A'). specialize (M2 r H2 T A). lia.
Qed.
Lemma hit_not_miss rs t p r : table_hit rs t p r -> table_miss rs t p -> False.
Proof. intros (l1 & l2 & E & T & A & _) M. apply (M r); auto. rewrite E. apply in_or_app. right. now left. Qed.
Lemma pipeline_det rs t p done ws m1 a1 w1 m2 a2 w2 : pipeline rs t p done ws m1 a1 w1 -> pipeline rs t p done ws m2 a2 w2 ->
  m1 = m2 /\ a1 = a2 /\ w1 = w2.
Proof.
  intros H. revert m2 a2 w2. induction H as [t p done ws r t' m a w Hit G H IH|t p done ws r Hit G|t p done ws M]; intros m2 a2 w2 H2.
  - inversion H2 as [? ? ? ? r2 t2 ? ? ? Hit2 G2 H2'|? ? ? ? r2 Hit2 G2|? ? ? ? M2]; subst; try (exfalso; eapply hit_not_miss; eassumption);
      assert (r2 = r) by (eapply hit_unique; eauto); subst r2; rewrite G in G2; [|discriminate G2]. injection G2 as <-. auto.
  - inversion H2 as [? ? ? ? r2 t2 ? ? ? Hit2 G2 H2'|? ? ? ? r2 Hit2 G2|? ? ? ? M2]; subst; try (exfalso; eapply hit_not_miss; eassumption);
      assert (r2 = r) by (eapply hit_unique; eauto); subst r2; rewrite G in G2; [discriminate G2|]. auto.
  - inversion H2 as [? ? ? ? r2 t2 ? ? ? Hit2 G2 H2'|? ? ? ? r2 Hit2 G2|? ? ? ? M2]; subst; try (exfalso; eapply hit_not_miss; eassumption). auto.
Qed.
(** tables that match everything are never missed *)
Lemma no_miss rs : (forall t p, (t = 0 \/ exists r, In r rs /\ goto_table (inst (rcore r)) = Some t) -> ~ table_miss rs t p) ->
  forall t p done ws m a w, (t = 0 \/ exists r, In r rs /\ goto_table (inst (rcore r)) = Some t) -> pipeline rs t p done ws m a w -> m = false.
Proof.
  intros Hc t p done ws m a w Ht H. induction H as [t p done ws r t' m a w Hit G H IH|t p done ws r Hit G|t p done ws M]; [|reflexivity|exfalso; eapply Hc; eauto].
  apply IH. right. exists r. split; [|auto]. destruct Hit as (l1 & l2 & E & _). rewrite E. apply in_or_app. right. now left.
Qed.

Lemma set_list_same s ws o : set_inv s ws -> set_list ws o -> teq o (orig_order s).
Proof.
  intros (Hok & Ho & Hn & Hw & Hk) (N & W & O).
  assert (P : Permutation (orig_order s) o) by (apply NoDup_Permutation; [now apply nodup_map in Hn|now apply nodup_map in N|]; intros a; now rewrite Hw, W).
  destruct Hk as [Hk|Hk].
  - destruct (orig_order s) as [|a [|b l]] eqn:E; [apply Permutation_nil in P|apply Permutation_length_1_inv in P|cbn in Hk; lia]; rewrite P; apply te_refl.
  - apply ateq_sym. apply ordered_teq; auto.
Qed.
Lemma set_inv_list s ws : set_inv s ws -> set_list ws (orig_order s).
Proof. intros (Hok & Ho & Hn & Hw & Hk). split; [auto|]. split; auto. Qed.

(** ** The whole conversion *)
Lemma single_run rs o reg r' single : reg_ok reg -> Forall (good_rule reg o) rs -> total_tables rs ->
  to_single_table rs o reg = (r', Ok single) -> follows reg o rs (tables_of rs) r' single.
Proof.
  intros Hreg Hrs Htot H. unfold to_single_table in H. apply sbind_ok in H as (r1 & rs1 & E1 & H). unfold slift in E1. injection E1 as <- E1.
  destruct (scale_ok _ _ E1) as (f & Hf & -> & Hmax & _). unfold to_single_table_scaled in H.
  rewrite tables_of_map in H by reflexivity. destruct (existsb (Z.eqb 0) (tables_of rs)) eqn:E0; cbn [negb] in H; [|discriminate H].
  assert (I0 : In 0 (tables_of rs)) by (apply existsb_exists in E0 as (x & Hx & E); apply Z.eqb_eq in E; now subst x).
  rewrite set_path_rescale in H.
  match type of H with context [map (rescale f ?g) rs] => set (g0 := g) in * end.
  destruct (fill_defaults (tables_of rs) (map (rescale f g0) rs)) as (F & EF & HF & Hfill). rewrite EF in H.
  assert (T0 : exists rest, tables_of rs = 0 :: rest).
  { assert (St := tables_of_sorted rs). destruct (tables_of rs) as [|t ts] eqn:Et; [destruct I0|]. exists ts. f_equal.
    inversion St as [|? ? _ Hlt]; subst. destruct I0 as [->|I0]; [reflexivity|]. rewrite Forall_forall in Hlt. specialize (Hlt 0 I0).
    assert (It : In t (tables_of rs)) by (rewrite Et; now left). apply tables_of_in in It as (r & Hr & Tr). rewrite Forall_forall in Hrs.
    destruct (Hrs r Hr) as (_ & _ & Q & _). lia. }
  destruct T0 as (rest & T0). assert (HF' : forall u, In u F -> forall x, In x (map (rescale f g0) rs) -> table (rcore x) = u -> priority (rcore x) <> 0) by (intros u Hu; apply HF, Hu).
  assert (St := tables_of_sorted rs). assert (Hin : forall t, In t rest -> In t (tables_of rs)) by (intros t Ht; rewrite T0; now right).
  remember (tables_of rs) as ts eqn:Ets. rewrite T0 in H |- *. change (0 :: rest) with ([0] ++ rest). subst ts.
  eapply steps_follow with (f := f) (g := g0) (F := F); eauto.
  - apply start_follows; auto.
  - cbn [app]; now rewrite <- T0.
Qed.
Lemma single_table_ok rs o reg r' single : reg_ok reg -> Forall (good_rule reg o) rs -> total_tables rs ->
  to_single_table rs o reg = (r', Ok single) -> forall p, exists c, first_match single p (Some c) /\
  (exists out, executes false rs p out) /\
  (forall l out, full_actions (inst (rcore c)) = Ok l -> executes false rs p out -> teq out (al_iter l)).
Proof.
  intros Hreg Hrs Htot H p. assert (Hfol := single_run _ _ _ _ _ Hreg Hrs Htot H).
  destruct (follows_end _ _ _ _ _ _ p Hfol (fun t Ht => Ht)) as (c & app & ws & Fc & Gc & Ta & Ww & miss & Hout). exists c. split; [auto|].
  destruct Gc as (_ & (Ia & Iw) & _). assert (Iw' : set_inv (write_actions (inst (rcore c))) ws) by (eapply set_inv_weq; [exact Iw|]; now apply weq_sym).
  split; [exists (app ++ orig_order (write_actions (inst (rcore c)))), miss, app, ws; eexists; split; [exact Hout|]; split; [exact (set_inv_list _ _ Iw')|]; now rewrite andb_false_r|].
  intros l out Hl (m' & a' & w' & s & Hp & Hs & ->). destruct (pipeline_det _ _ _ _ _ _ _ _ _ _ _ Hp Hout) as (-> & -> & ->).
  rewrite andb_false_r. destruct (al_add_ok _ _ _ _ _ Ia (proj1 Iw) Hl) as [Al Tl].
  eapply te_trans; [|apply al_ok_iter, Al]. eapply te_trans; [|exact Tl]. apply ateq_app; [auto|]. eapply set_list_same; eauto.
Qed.

(** ** The conversion succeeds *)
Definition pooled (P : action -> Prop) (i : instructions) : Prop := Forall P (orig_order (apply_actions i)) /\ Forall P (orig_order (write_actions i)).
Lemma as_extend_total xs : forall s ys, set_inv s ys -> Forall (fun a => known a = true) ys -> Forall (fun a => known a = true) xs -> exists s', as_extend s xs = Ok s'.
Proof.
  unfold as_extend. induction xs as [|x xs IH]; intros s ys Hs Hy Hx; cbn [rfold]; [eauto|]. inversion Hx as [|? ? H1 H2]; subst.
  destruct (as_append_total s ys x Hs Hy H1) as (s' & E). rewrite E. cbn [rbind]. apply (IH s' (ys ++ [x])); auto.
  - eapply as_append_inv; eauto.
  - apply Forall_app; auto.
Qed.
Section Total.
  Variable P : action -> Prop.
  Hypothesis HP : forall a b, P a -> P b -> compat a b.
  Lemma pool_known l : Forall P l -> Forall (fun a => known a = true) l.
  Proof. apply Forall_impl. intros a Ha. apply (HP a a Ha Ha). Qed.
  Lemma pool_iter l : al_ok l (orig_order l) -> Forall P (orig_order l) -> Forall P (al_iter l).
  Proof. intros H HF. rewrite Forall_forall in *. intros a Ha. apply HF. apply (Permutation_in a (Permutation_sym (al_ok_iter_perm _ _ H)) Ha). Qed.
  Lemma al_add_total a b : al_ok a (orig_order a) -> al_ok b (orig_order b) -> Forall P (orig_order a) -> Forall P (orig_order b) -> exists l, al_add a b = Ok l.
  Proof.
    intros Ha Hb Pa Pb. apply (al_extend_total (al_iter b) a (orig_order a) Ha). assert (Pb' := pool_iter _ Hb Pb). rewrite Forall_forall in *.
    intros x y Hx Hy. apply HP; [auto|]. apply in_app_or in Hy as [Hy|Hy]; auto.
  Qed.
  Lemma inst_merge_total a b : inst_wf a -> inst_wf b -> pooled P a -> pooled P b -> exists i, inst_merge a b = Ok i.
  Proof.
    intros [Aa Wa] [Ab Wb] [P1 P2] [P3 P4]. unfold inst_merge.
    assert (E : exists w, (if clear_actions b then Ok (write_actions b) else as_add (write_actions a) (write_actions b)) = Ok w).
    { destruct (clear_actions b); [eauto|]. apply (as_extend_total _ _ _ Wa (pool_known _ P2)). apply pool_known. apply pool_iter; [apply Wb|auto]. }
    destruct E as (w & ->). cbn [rbind]. destruct (al_add_total _ _ Aa Ab P1 P3) as (l & ->). cbn [rbind]. eauto.
  Qed.
  Lemma seq_pooled a b c : inst_wf c -> seq_inst a b c -> pooled P a -> pooled P b -> pooled P c.
  Proof.
    intros Wc S [P1 P2] [P3 P4]. split.
    - eapply Permutation_Forall; [apply (ateq_perm _ _ (sq_apply _ _ _ S))|]. apply Forall_app. auto.
    - apply Forall_forall. intros x Hx. assert (W : winner (orig_order (write_actions c)) x) by (destruct Wc as [_ (_ & _ & _ & Q & _)]; now apply Q).
      apply (sq_write _ _ _ S) in W. apply winner_in in W. rewrite Forall_forall in *. apply in_app_or in W as [W|W]; [|auto]. destruct (clear_actions b); [destruct W|auto].
  Qed.
  Definition pool_rule (x : rule) : Prop := pooled P (inst (rcore x)).
  Lemma block_total o a : forall S res r, reg_ok r -> good r o (rcore a) -> goods r o S -> pool_rule a -> Forall pool_rule S -> Forall pool_rule res ->
    exists r' out, sfold (condense_pair o a) S res r = (r', Ok out) /\ reg_ok r' /\ rle r r' /\ Forall pool_rule out.
  Proof.
    induction S as [|b S IH]; intros res r Hr Ga GS Pa PS Pr; cbn [sfold].
    - exists r, res. split; [reflexivity|]. split; [auto|]. split; [apply rle_refl|auto].
    - inversion GS as [|? ? Gb GS']; subst. inversion PS as [|? ? Pb PS']; subst.
      assert (Wa := proj1 (proj2 Ga)). assert (Wb := proj1 (proj2 Gb)). destruct (inst_merge_total _ _ Wa Wb Pa Pb) as (i & Ei).
      destruct (core_merge_ok r (rcore a) (rcore b) o Hr Ga Gb) as (r2 & R2 & L2 & [[N Em]|[Y [(e & Ee & Em)|(c & Em & Mc & Gc)]]]).
      + destruct (IH res r2 R2 (good_mono _ _ _ _ L2 Ga) (goods_mono _ _ _ _ L2 GS') Pa PS' Pr) as (r' & out & E & R & L & Po).
        exists r', out. split; [|split; [auto|split; [eapply rle_trans; eauto|auto]]]. unfold sbind, condense_pair at 1. rewrite Em. exact E.
      + congruence.
      + destruct (IH (res ++ [mkRule c (path a ++ path b)]) r2 R2 (good_mono _ _ _ _ L2 Ga) (goods_mono _ _ _ _ L2 GS') Pa PS') as (r' & out & E & R & L & Po).
        { apply Forall_app. split; [auto|]. constructor; [|constructor]. eapply seq_pooled; [apply (proj1 (proj2 Gc))|apply (mc_inst _ _ _ Mc)|exact Pa|exact Pb]. }
        exists r', out. split; [|split; [auto|split; [eapply rle_trans; eauto|auto]]]. unfold sbind, condense_pair at 1. rewrite Em. exact E.
  Qed.
  Lemma condense_total o t S : forall C res r, reg_ok r -> goods r o C -> goods r o S -> Forall pool_rule C -> Forall pool_rule S -> Forall pool_rule res ->
    exists r' out, sfold (condense_rule o S t) C res r = (r', Ok out) /\ reg_ok r' /\ rle r r' /\ Forall pool_rule out.
  Proof.
    induction C as [|a C IH]; intros res r Hr GC GS PC PS Pr; cbn [sfold].
    - exists r, res. split; [reflexivity|]. split; [auto|]. split; [apply rle_refl|auto].
    - inversion GC as [|? ? Ga GC']; subst. inversion PC as [|? ? Pa PC']; subst.
      assert (X : exists r1 acc, condense_rule o S t res a r = (r1, Ok acc) /\ reg_ok r1 /\ rle r r1 /\ Forall pool_rule acc).
      { unfold condense_rule. destruct (opt_eqb _ _ _); [now apply block_total|]. exists r, (res ++ [a]). split; [reflexivity|]. split; [auto|]. split; [apply rle_refl|].
        apply Forall_app. auto. }
      destruct X as (r1 & acc & E1 & R1 & L1 & Pacc).
      destruct (IH acc r1 R1 (goods_mono _ _ _ _ L1 GC') (goods_mono _ _ _ _ L1 GS) PC' PS Pacc) as (r' & out & E & R & L & Po).
      exists r', out. split; [|split; [auto|split; [eapply rle_trans; eauto|auto]]]. unfold sbind. rewrite E1. exact E.
  Qed.
  Lemma tables_total o rs3 : forall rest C r, reg_ok r -> goods r o C -> goods r o rs3 -> Forall pool_rule C -> Forall pool_rule rs3 ->
    exists r' out, sfold (next_table o rs3) rest C r = (r', Ok out) /\ Forall pool_rule out.
  Proof.
    induction rest as [|t rest IH]; intros C r Hr GC G3 PC P3; cbn [sfold]; [exists r, C; split; [reflexivity|auto]|].
    assert (Sub : forall Q : rule -> Prop, Forall Q rs3 -> Forall Q (sort_prio (filter (in_table t) rs3))).
    { intros Q HQ. rewrite <- sort_prio_perm. rewrite Forall_forall in *. intros x Hx. apply filter_In in Hx as [Hx _]. auto. }
    destruct (condense_total o t (sort_prio (filter (in_table t) rs3)) C [] r Hr GC (Sub _ G3) PC (Sub _ P3) (Forall_nil _)) as (r1 & C1 & E1 & R1 & L1 & PC1).
    destruct (condense_ok _ _ _ _ _ _ _ _ Hr GC (Sub _ G3) E1) as (_ & _ & R0 & -> & _ & GR).
    destruct (IH R0 r1 R1 GR (goods_mono _ _ _ _ L1 G3) PC1 P3) as (r' & out & E & Po). exists r', out. split; [|auto].
    unfold sbind, next_table at 1, single_table_condense. rewrite E1. exact E.
  Qed.
  Lemma single_total rs o reg : reg_ok reg -> Forall (good_rule reg o) rs -> Forall pool_rule rs -> In 0 (tables_of rs) ->
    (forall r, In r rs -> priority (rcore r) < MAX_PRIORITY) -> exists r' single, to_single_table rs o reg = (r', Ok single) /\ Forall pool_rule single.
  Proof.
    intros Hreg Hrs HPl I0 Hmax. unfold to_single_table.
    assert (Es : exists rs1, scale_ruleset rs = Ok rs1).
    { unfold scale_ruleset. assert (Hin : forall r, In r rs -> exists k, power_of (tables_of rs) (table (rcore r)) = Ok k).
      { intros r Hr. assert (Ht : In (table (rcore r)) (tables_of rs)) by (apply tables_of_in; eauto). revert Ht. generalize (table (rcore r)). clear.
        intros t. induction (tables_of rs) as [|u ts IH]; cbn [power_of In]; [contradiction|]. destruct (Z.eqb_spec u t); [eauto|]. intros [Q|Q]; [contradiction|auto]. }
      revert Hin Hmax. generalize (tables_of rs). clear. intros ts. induction rs as [|r rs IH]; intros Hin Hmax; cbn [map rall]; [eauto|].
      unfold scale_rule at 1. destruct (Z.leb_spec MAX_PRIORITY (priority (rcore r))) as [Q|_]; [specialize (Hmax r (or_introl eq_refl)); lia|].
      destruct (Hin r (or_introl eq_refl)) as (k & ->). cbn [rbind]. destruct IH as (xs & ->); [intros; apply Hin; now right|intros; apply Hmax; now right|].
      cbn [rbind]. eauto. }
    destruct Es as (rs1 & Es). unfold sbind, slift at 1. rewrite Es. destruct (scale_ok _ _ Es) as (f & Hf & -> & _ & _). unfold to_single_table_scaled.
    rewrite tables_of_map by reflexivity. assert (E0 : existsb (Z.eqb 0) (tables_of rs) = true) by (apply existsb_exists; exists 0; split; [auto|reflexivity]).
    rewrite E0. cbn [negb]. rewrite set_path_rescale. match goal with |- context [map (rescale f ?g) rs] => set (g0 := g) end.
    destruct (fill_defaults (tables_of rs) (map (rescale f g0) rs)) as (F & EF & HF & Hfill). rewrite EF.
    assert (G3 : goods reg o (map (rescale f g0) rs ++ map filler F)) by (apply rs3_goods with (reg := reg); auto using rle_refl).
    assert (P3 : Forall pool_rule (map (rescale f g0) rs ++ map filler F)).
    { apply Forall_app. split; apply Forall_map; [exact HPl|]. apply Forall_forall. intros t _. split; constructor. }
    destruct (tables_of rs) as [|t0 rest]; [destruct I0|].
    assert (Sub : forall Q : rule -> Prop, Forall Q (map (rescale f g0) rs ++ map filler F) -> Forall Q (sort_prio (filter (in_table t0) (map (rescale f g0) rs ++ map filler F)))).
    { intros Q HQ. rewrite <- sort_prio_perm. rewrite Forall_forall in *. intros x Hx. apply filter_In in Hx as [Hx _]. auto. }
    apply (tables_total o _ rest _ reg Hreg (Sub _ G3) G3 (Sub _ P3) P3).
  Qed.
End Total.
