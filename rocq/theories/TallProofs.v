(** Merging rules that push and pop tags, on packets with tag stacks of any depth (C79). *)
From Coq Require Import Lia ZifyBool ZifyNat ZifyN.
From Verif Require SingleTableProofs.
From Verif Require Import SingleTable SpecTall ExecProofs MatchWcProofs MatchProofs WildcardProofs ActionProofs MergeProofs TagProofs.
Local Open Scope string_scope.
Local Open Scope list_scope.
Local Open Scope Z_scope.
Local Opaque NB WC_FULLWC layout oxm_fields registry_init.
Local Notation l1 f := (f ++ "1")%string.
Local Notation l2 f := (f ++ "2")%string.

(** ** Names and levels *)
Definition lv (f : string) (k : nat) : string := match k with O => f | 1%nat => l1 f | _ => l2 f end.
Definition place_is (n f : string) (k : nat) : bool := match tag_place n with Some (a, d) => String.eqb a f && Nat.eqb d k | None => false end.
Lemma place_check : forallb (fun f => forallb (fun k => place_is (lv f k) f k) [0%nat; 1%nat; 2%nat]) all_tag_fields = true.
Proof. vm_compute. reflexivity. Qed.
Lemma place_tag f k : tag_field f -> (k <= 2)%nat -> tag_place (lv f k) = Some (f, k).
Proof.
  intros Hf Hk. apply tag_field_in in Hf. assert (T := place_check). rewrite forallb_forall in T. specialize (T f Hf). rewrite forallb_forall in T.
  assert (Q : place_is (lv f k) f k = true) by (apply T; destruct k as [|[|[|k]]]; cbn [In]; auto; lia).
  unfold place_is in Q. destruct (tag_place (lv f k)) as [[a d]|]; [|discriminate Q]. rewrite andb_true_iff, String.eqb_eq, Nat.eqb_eq in Q. destruct Q as [-> ->]. reflexivity.
Qed.
Lemma place_inv n f k : tag_place n = Some (f, k) -> tag_field f /\ (k <= 2)%nat /\ n = lv f k.
Proof.
  unfold tag_place. destruct (find _ _) as [g|] eqn:E; [|discriminate]. apply find_some in E as [E1 E2]. apply in_flat_map in E1. intros [= <- <-].
  split; [exact E1|]. rewrite !orb_true_iff, !String.eqb_eq in E2. destruct (String.eqb_spec n g) as [->|N0]; [split; [lia|reflexivity]|].
  destruct (String.eqb_spec n (l1 g)) as [->|N1]; [split; [lia|reflexivity]|]. split; [lia|]. cbn [lv]. tauto.
Qed.
Lemma lv_wide f b k : levels f b -> wide (lv f k) b.
Proof. intros (A & B & C). destruct k as [|[|k]]; auto. Qed.
Lemma place_none f n k : tag_place n = None -> tag_field f -> n <> lv f k.
Proof. intros H Hf ->. destruct k as [|[|k]]; [rewrite (place_tag f 0) in H|rewrite (place_tag f 1) in H|change (lv f (S (S k))) with (lv f 2) in H; rewrite (place_tag f 2) in H]; auto; discriminate. Qed.
Lemma lv_neq f g k d : tag_field f -> tag_field g -> f <> g -> (k <= 2)%nat -> (d <= 2)%nat -> lv f k <> lv g d.
Proof. intros Hf Hg N Hk Hd E. assert (A := place_tag f k Hf Hk). rewrite E, place_tag in A by auto. congruence. Qed.
Lemma lv_inj f k d : tag_field f -> (k <= 2)%nat -> (d <= 2)%nat -> lv f k = lv f d -> k = d.
Proof. intros Hf Hk Hd E. assert (A := place_tag f k Hf Hk). rewrite E, place_tag in A by auto. congruence. Qed.
Lemma meta_place : tag_place "METADATA" = None. Proof. vm_compute. reflexivity. Qed.

(** ** The header of a packet *)
Lemma tview_bit T n b j : wide n b -> 0 <= j < b -> fbit (tview T) n j = match tag_place n with Some (f, k) => tags T f k j | None => fbit (flat T) n j end.
Proof.
  intros W Hj. destruct (fbit_at n b (tview T) j W Hj) as (s & Hs & Hn & Ha & E). rewrite E. unfold tview. rewrite Ha, Hn. replace (sl_off s + j - sl_off s) with j by lia.
  destruct (tag_place n) as [[f k]|]; [reflexivity|]. symmetry. now apply fbit_slot.
Qed.
Lemma tview_lv T f b k j : tag_field f -> levels f b -> (k <= 2)%nat -> 0 <= j < b -> fbit (tview T) (lv f k) j = tags T f k j.
Proof. intros Hf Lv Hk Hj. rewrite (tview_bit T _ b) by (auto; now apply lv_wide). now rewrite place_tag. Qed.
Lemma tview_at T i s : slot_at i = Some s -> tview T i = fbit (tview T) (sl_name s) (i - sl_off s).
Proof. intros H. apply slot_at_in in H as [H1 H2]. rewrite (fbit_slot _ _ s _ H1 eq_refl). f_equal. lia. Qed.
Lemma slot_wide i s : slot_at i = Some s -> wide (sl_name s) (sl_bits s) /\ 0 <= i - sl_off s < sl_bits s.
Proof. intros H. apply slot_at_in in H as [Hs Hi]. split; [split; [destruct (slot_range s Hs); lia|exists s; auto]|lia]. Qed.
(** two headers with the same fields *)
Lemma same_header p q : (forall i, slot_at i = None -> p i = q i) -> (forall n b j, wide n b -> 0 <= j < b -> fbit p n j = fbit q n j) -> forall i, p i = q i.
Proof.
  intros H1 H2 i. destruct (slot_at i) as [s|] eqn:E; [|auto]. destruct (slot_wide i s E) as [W Hj]. specialize (H2 _ _ _ W Hj).
  apply slot_at_in in E as [Hs Hi]. rewrite !(fbit_slot _ _ s _ Hs eq_refl) in H2. now replace (sl_off s + (i - sl_off s)) with i in H2 by lia.
Qed.
Lemma tview_push T f : tag_field f -> forall i, tview (tall_push_field T f) i = push_field f (tview T) i.
Proof.
  intros Hf. destruct (tag_levels f Hf) as (b & Lv). apply same_header.
  - intros i E. unfold tview, push_field. now rewrite E.
  - intros n bn j W Hj. rewrite (tview_bit _ n bn j W Hj), (fbit_push f _ n bn j W Hj). destruct (tag_place n) as [[g k]|] eqn:Ep.
    + destruct (place_inv n g k Ep) as (Hg & Hk & ->). destruct (tag_levels g Hg) as (bg & Lg). assert (bn = bg) by (eapply wide_fun; [exact W|now apply lv_wide]). subst bn.
      cbn [tags tall_push_field]. destruct (String.eqb_spec g f) as [->|N].
      * assert (bg = b) by (destruct Lg as (A & _), Lv as (B & _); eapply wide_fun; eauto). subst bg. names f.
        destruct k as [|[|[|k]]]; cbn [lv]; eqbs; try lia; [now rewrite <- (tview_lv T f b 0 j) by (auto; lia)|now rewrite <- (tview_lv T f b 0 j) by (auto; lia)|now rewrite <- (tview_lv T f b 1 j) by (auto; lia)].
      * assert (A0 := lv_neq g f k 0 Hg Hf N Hk ltac:(lia)). assert (A1 := lv_neq g f k 1 Hg Hf N Hk ltac:(lia)). assert (A2 := lv_neq g f k 2 Hg Hf N Hk ltac:(lia)). cbn [lv] in A0, A1, A2.
        rewrite (proj2 (String.eqb_neq _ _) A0), (proj2 (String.eqb_neq _ _) A1), (proj2 (String.eqb_neq _ _) A2). symmetry. now apply (tview_lv T g bg).
    + assert (A0 := place_none f n 0 Ep Hf). assert (A1 := place_none f n 1 Ep Hf). assert (A2 := place_none f n 2 Ep Hf). cbn [lv] in A0, A1, A2.
      rewrite (proj2 (String.eqb_neq _ _) A0), (proj2 (String.eqb_neq _ _) A1), (proj2 (String.eqb_neq _ _) A2). rewrite (tview_bit T n bn j W Hj), Ep. reflexivity.
Qed.
Lemma fbit_pop2 below f p b j : wide (l2 f) b -> 0 <= j < b -> fbit (pop_field below f p) (l2 f) j = fbit below (l2 f) j.
Proof.
  intros W Hj. names f. destruct (fbit_at _ b (pop_field below f p) j W Hj) as (s & Hs & Hn & Ha & E). rewrite E. unfold pop_field. rewrite Ha, Hn. eqbs. symmetry. now apply fbit_slot.
Qed.
Lemma tview_pop T f : tag_field f -> forall i, tview (tall_pop_field T f) i = pop_field (tview (tall_pop_field T f)) f (tview T) i.
Proof.
  intros Hf. destruct (tag_levels f Hf) as (b & Lv). apply same_header.
  - intros i E. unfold tview at 1, pop_field. rewrite E. unfold tview. now rewrite E.
  - intros n bn j W Hj. destruct (string_dec n (l2 f)) as [->|N2]; [now rewrite (fbit_pop2 _ f _ bn)|].
    rewrite (tview_bit _ n bn j W Hj), (fbit_pop _ f _ n bn j W Hj N2). destruct (tag_place n) as [[g k]|] eqn:Ep.
    + destruct (place_inv n g k Ep) as (Hg & Hk & ->). destruct (tag_levels g Hg) as (bg & Lg). assert (bn = bg) by (eapply wide_fun; [exact W|now apply lv_wide]). subst bn.
      cbn [tags tall_pop_field]. destruct (String.eqb_spec g f) as [->|N].
      * assert (bg = b) by (destruct Lg as (A & _), Lv as (B & _); eapply wide_fun; eauto). subst bg. names f.
        destruct k as [|[|[|k]]]; cbn [lv] in *; eqbs; try lia; [now rewrite <- (tview_lv T f b 1 j) by (auto; lia)|now rewrite <- (tview_lv T f b 2 j) by (auto; lia)|now destruct N2].
      * assert (A0 := lv_neq g f k 0 Hg Hf N Hk ltac:(lia)). assert (A1 := lv_neq g f k 1 Hg Hf N Hk ltac:(lia)). cbn [lv] in A0, A1.
        rewrite (proj2 (String.eqb_neq _ _) A0), (proj2 (String.eqb_neq _ _) A1). symmetry. now apply (tview_lv T g bg).
    + assert (A0 := place_none f n 0 Ep Hf). assert (A1 := place_none f n 1 Ep Hf). cbn [lv] in A0, A1.
      rewrite (proj2 (String.eqb_neq _ _) A0), (proj2 (String.eqb_neq _ _) A1). rewrite (tview_bit T n bn j W Hj), Ep. reflexivity.
Qed.
Lemma fbit_write n v mk p m b j : wide m b -> 0 <= j < b -> fbit (write_field n v mk p) m j = if String.eqb m n && mask_bit mk j then Z.testbit v j else fbit p m j.
Proof.
  intros W Hj. destruct (fbit_at m b (write_field n v mk p) j W Hj) as (s & Hs & Hn & Ha & E). rewrite E. unfold write_field. rewrite Ha, Hn. replace (sl_off s + j - sl_off s) with j by lia.
  rewrite (fbit_slot p m s j Hs Hn). unfold mask_bit. reflexivity.
Qed.
Lemma tview_set T n v : forall i, tview (tall_set n v T) i = write_field n v None (tview T) i.
Proof.
  apply same_header.
  - intros i E. unfold tview, write_field. rewrite E. unfold tall_set, write_field. cbn [flat]. now rewrite E.
  - intros m b j W Hj. rewrite (tview_bit _ m b j W Hj), (fbit_write n v None _ m b j W Hj). cbn [mask_bit]. rewrite andb_true_r, (tview_bit T m b j W Hj). unfold tall_set. cbn [tags flat].
    destruct (tag_place m) as [[g k]|] eqn:Em.
    + destruct (place_inv m g k Em) as (Hg & Hk & Q). destruct (String.eqb_spec m n) as [E|E].
      * rewrite <- E, Em. now rewrite String.eqb_refl, Nat.eqb_refl.
      * destruct (tag_place n) as [[f d]|] eqn:En; [|reflexivity]. destruct (String.eqb_spec g f) as [->|]; [|reflexivity]. destruct (Nat.eqb_spec k d) as [->|]; [|reflexivity].
        destruct (place_inv n f d En) as (_ & _ & Q'). congruence.
    + rewrite (fbit_write n v None _ m b j W Hj). cbn [mask_bit]. now rewrite andb_true_r.
Qed.
Lemma tview_meta T wm : forall i, tview (Tall (metadata_header wm (flat T)) (tags T)) i = metadata_header wm (tview T) i.
Proof.
  destruct wm as [[v mk]|]; cbn [metadata_header]; [|intros i; reflexivity]. apply same_header.
  - intros i E. unfold tview, write_field. rewrite E. cbn [flat]. now rewrite E.
  - intros m b j W Hj. rewrite (tview_bit _ m b j W Hj), (fbit_write _ v mk _ m b j W Hj), (tview_bit T m b j W Hj). cbn [tags flat].
    destruct (tag_place m) as [[g k]|] eqn:Em.
    + destruct (String.eqb_spec m "METADATA") as [->|]; [rewrite meta_place in Em; discriminate|reflexivity].
    + now rewrite (fbit_write _ v mk _ m b j W Hj).
Qed.

(** ** One field pushed or popped: both matches of the egress *)
Lemma runs_and {A} (c : st A) r P Q : runs c r P -> runs c r Q -> runs c r (fun r' x => P r' x /\ Q r' x).
Proof. intros (r1 & x1 & E1 & R1 & L1 & P1) (r2 & x2 & E2 & _ & _ & Q2). rewrite E1 in E2. injection E2 as <- <-. exists r1, x1. auto. Qed.
Definition others (f : string) (m m' : Match) : Prop := forall n, n <> f -> n <> l1 f -> n <> l2 f -> mget m' n = mget m n.
Lemma stored_exact n v x : stored n v None x -> exists id, x = (v, None, id).
Proof. destruct x as [[v' mk'] id]. intros (X & _). destruct (X eq_refl) as (-> & ->). eauto. Qed.
Definition push_facts (f : string) (b : Z) (c : Z) (m m' : Match) : Prop :=
  (exists id, mget m' f = Some (c, None, id)) /\ moved b (mget m f) (mget m' (l1 f)) /\ moved b (mget m (l1 f)) (mget m' (l2 f)) /\ others f m m'.
Definition pop_facts (f : string) (b : Z) (m m' : Match) : Prop :=
  moved b (mget m (l1 f)) (mget m' f) /\ moved b (mget m (l2 f)) (mget m' (l1 f)) /\ mget m' (l2 f) = None /\ others f m m'.
Lemma push_rew r e f b : reg_ok r -> eg_ok r e -> tag_field f -> levels f b -> mhas (eg_sim e) (l2 f) = false ->
  runs (sim_push_field e f) r (fun _ e' => exists c, push_facts f b c (eg_sim e) (eg_sim e') /\ push_facts f b c (eg_rew e) (eg_rew e')).
Proof.
  intros Hr He Hf Lv H2. names f. assert (Ks := eo_known r e He). assert (Kr := eo_knownr r e He).
  unfold sim_push_field. eapply runs_bind; [apply demote1_runs; eauto using tidy_known; apply He|]. intros r1 s1 R1 L1 (M1 & S1).
  eapply runs_bind; [apply (demote1_runs r1 (eg_rew e) f b); auto; [eapply match_ok_mono; [exact L1|apply He]|now apply tidy_known|now apply (eo_none r)]|].
  intros r2 w1 R2 L2 (W1 & T1). cbv zeta.
  assert (Fin : forall c, runs (sdo s <- s_append s1 f c None; sdo w <- s_append w1 f c None; sret (mkEg s w (eg_ops e))) r2
     (fun _ e' => exists c, push_facts f b c (eg_sim e) (eg_sim e') /\ push_facts f b c (eg_rew e) (eg_rew e'))).
  { intros c. eapply runs_bind; [apply append_runs; [auto|eapply match_ok_mono; [exact L2|auto]]|]. intros r3 s2 R3 L3 (M2 & x & X & G).
    eapply runs_bind; [apply append_runs; [auto|eapply match_ok_mono; [exact L3|auto]]|]. intros r4 w2 R4 L4 (W2 & y & Y & G').
    apply runs_ret; [auto|]. cbn [eg_sim eg_rew eg_ops]. exists c. destruct S1 as (_ & B1 & B2 & B3). destruct T1 as (_ & D1 & D2 & D3).
    apply stored_exact in X as (ix & ->). apply stored_exact in Y as (iy & ->).
    split; (split; [rewrite ?G, ?G', String.eqb_refl; eauto|]); (split; [rewrite ?G, ?G'; eqbs; auto|]); (split; [rewrite ?G, ?G'; eqbs; auto|]);
      intros n Q0 Q1 Q2; rewrite ?G, ?G', (proj2 (String.eqb_neq f n)) by auto; auto. }
  destruct (mget s1 (f ++ "1")) as [[[v mk] id]|]; apply Fin.
Qed.
Lemma pop_rew r e f b : reg_ok r -> eg_ok r e -> tag_field f -> levels f b -> one_inner (eg_sim e) f ->
  runs (sim_pop_field e f) r (fun _ e' => pop_facts f b (eg_sim e) (eg_sim e') /\ pop_facts f b (eg_rew e) (eg_rew e')).
Proof.
  intros Hr He Hf Lv H2. names f. assert (Ks := eo_known r e He). assert (Kr := eo_knownr r e He).
  unfold sim_pop_field. eapply runs_bind; [apply drop_runs; [auto|apply He]|]. intros r1 s1 R1 L1 (M1 & G1).
  eapply runs_bind; [apply (drop_runs r1 (eg_rew e) f); [auto|eapply match_ok_mono; [exact L1|apply He]]|]. intros r2 w1 R2 L2 (W1 & G1').
  assert (Kn : forall m m', known m -> (forall n, mget m' n = if String.eqb f n then None else mget m n) -> known m').
  { intros m m' Hm G. eapply known_set; [exact Hm| |exact G]. destruct Lv as ((_ & s & A & B & _) & _); eauto. }
  assert (Nf : forall m m', (forall n, mget m' n = if String.eqb f n then None else mget m n) -> mhas m' f = false) by (intros m m' G; unfold mhas; now rewrite G, String.eqb_refl).
  assert (On : forall m m', (forall n, mget m' n = if String.eqb f n then None else mget m n) -> one_inner m f -> one_inner m' f).
  { intros m m' G [H|H]; [left|right]; unfold mhas; rewrite G; eqbs; exact H. }
  assert (H2' : one_inner (eg_rew e) f) by (destruct H2; [left|right]; now apply (eo_none r)).
  eapply runs_bind; [apply (promote1_runs r2 s1 f b); auto; [eapply match_ok_mono; [exact L2|auto]|apply tidy_known; eauto|eauto|apply one_ascending; eauto]|]. intros r3 s2 R3 L3 (M2 & S2).
  eapply runs_bind; [apply (promote1_runs r3 w1 f b); auto; [eapply match_ok_mono; [exact L3|auto]|apply tidy_known; eauto|eauto|apply one_ascending; eauto]|]. intros r4 w2 R4 L4 (W2 & T2).
  apply runs_ret; [auto|]. cbn [eg_sim eg_rew eg_ops]. destruct S2 as (B0 & B1 & B2 & B3). destruct T2 as (D0 & D1 & D2 & D3).
  rewrite G1 in B0, B1. rewrite G1' in D0, D1. revert B0 B1 D0 D1. eqbs. intros B0 B1 D0 D1. apply moved_no in B2, D2.
  split; (split; [auto|]); (split; [auto|]); (split; [auto|]); intros n Q0 Q1 Q2; [rewrite B3, G1 by auto|rewrite D3, G1' by auto]; now rewrite (proj2 (String.eqb_neq f n)) by auto.
Qed.

(** ** What the egress knows of the packet *)
Record tinv (m0 : Match) (F : tall -> tall) (C : string -> Z) (e : egress) : Prop := mkTI {
  ti_acc : forall T, maccepts m0 (tview T) -> maccepts (eg_sim e) (tview (F T));
  ti_exact : forall n x, mget (eg_rew e) n = Some x -> exists v id id', x = (v, None, id) /\ mget (eg_sim e) n = Some (v, None, id');
  ti_flat : forall n, tag_place n = None -> mget (eg_rew e) n = None -> mget (eg_sim e) n = mget m0 n /\
    forall T b j, wide n b -> 0 <= j < b -> fbit (flat (F T)) n j = fbit (flat T) n j;
  ti_tag : forall f b k, tag_field f -> levels f b -> ((3 <= k)%nat \/ mget (eg_rew e) (lv f k) = None) -> 0 <= Z.of_nat k + C f /\
    (forall T j, tags (F T) f k j = tags T f (Z.to_nat (Z.of_nat k + C f)) j) /\
    ((k <= 2)%nat -> forall j, 0 <= j < b -> ibit (mget (eg_sim e) (lv f k)) j = if Z.of_nat k + C f =? 0 then ibit (mget m0 f) j else None);
  ti_meta : mget (eg_rew e) "METADATA" = None }.
Lemma tinv_ext m0 F F' C C' e e' : (forall T, F T = F' T) -> (forall f, C f = C' f) -> eg_sim e = eg_sim e' -> eg_rew e = eg_rew e' -> tinv m0 F C e -> tinv m0 F' C' e'.
Proof.
  intros HF HC E1 E2 [H1 H2 H3 H4 H5]. constructor; [|rewrite <- ?E1, <- ?E2; exact H2| | |rewrite <- E2; exact H5].
  - intros T HT. rewrite <- HF, <- E1. auto.
  - intros n Hn Hr. rewrite <- E2 in Hr. rewrite <- E1. destruct (H3 n Hn Hr) as (A & B). split; [auto|]. intros T b j. rewrite <- HF. apply B.
  - intros f b k Hf Lv Hk. rewrite <- E2 in Hk. rewrite <- HC, <- E1. destruct (H4 f b k Hf Lv Hk) as (A & B & D). split; [auto|]. split; [|auto]. intros T j. rewrite <- HF. auto.
Qed.
Lemma other_place f n m m' : tag_field f -> others f m m' -> tag_place n = None -> mget m' n = mget m n.
Proof. intros Hf H Hn. apply H; [apply (place_none f n 0)|apply (place_none f n 1)|apply (place_none f n 2)]; auto. Qed.
Lemma other_lv f g k m m' : tag_field f -> tag_field g -> g <> f -> others f m m' -> mget m' (lv g k) = mget m (lv g k).
Proof.
  intros Hf Hg N H. assert (Q : forall k, (k <= 2)%nat -> mget m' (lv g k) = mget m (lv g k)).
  { intros d Hd. apply H; [apply (lv_neq g f d 0)|apply (lv_neq g f d 1)|apply (lv_neq g f d 2)]; auto. }
  destruct k as [|[|k]]; [apply (Q 0%nat)|apply (Q 1%nat)|change (lv g (S (S k))) with (lv g 2); apply Q]; lia.
Qed.
Definition upd (C : string -> Z) (f : string) (d : Z) (g : string) : Z := if String.eqb g f then C g + d else C g.
Lemma tinv_push r e m0 F C f : reg_ok r -> eg_ok r e -> tinv m0 F C e -> tag_field f -> exact_in (eg_sim e) f -> mhas (eg_sim e) (l2 f) = false ->
  runs (sim_push_field e f) r (fun r' e' => eg_ok r' e' /\ others f (eg_sim e) (eg_sim e') /\ tinv m0 (fun T => tall_push_field (F T) f) (upd C f (-1)) e').
Proof.
  intros Hr He Hi Hf (v & id & Hx) H2. destruct (tag_levels f Hf) as (b & Lv). eapply runs_weaken; [apply runs_and; [apply (push_runs r e f); auto|apply (push_rew r e f b); auto]|].
  intros r1 e1 R1 L1 [(E1 & _ & O1 & _ & A1) (c & (X0 & X1 & X2 & X3) & (Y0 & Y1 & Y2 & Y3))]. split; [exact E1|]. split; [exact X3|].
  assert (N2 : mget (eg_rew e) (l2 f) = None) by (apply mhas_none; now apply (eo_none r)).
  destruct Hi as [I1 I2 I3 I4 I5]. names f. constructor.
  - intros T HT. eapply maccepts_ext; [intros i; symmetry; apply tview_push; auto|]. apply A1; [now apply (exact_blank _ _ v id)|auto].
  - intros n x Hn. destruct (string_dec n f) as [->|Q0].
    { destruct X0 as (ix & X0), Y0 as (iy & Y0). rewrite Y0 in Hn. injection Hn as <-. eauto 6. }
    assert (Mv : forall a d y, moved b (mget (eg_rew e) a) (mget (eg_rew e1) d) -> moved b (mget (eg_sim e) a) (mget (eg_sim e1) d) -> mget (eg_rew e1) d = Some y ->
       exists v id id', y = (v, None, id) /\ mget (eg_sim e1) d = Some (v, None, id')).
    { intros a d y (P1 & _ & _ & P4) (_ & _ & _ & Q4) Hd. destruct (mget (eg_rew e) a) as [z|] eqn:Ez; [|rewrite (proj1 P1 eq_refl) in Hd; discriminate].
      destruct (I2 a z Ez) as (w & i1 & i2 & -> & Ez'). destruct (P4 w i1 eq_refl) as (i3 & P4'). destruct (Q4 w i2 Ez') as (i4 & Q4'). rewrite P4' in Hd. injection Hd as <-. eauto 6. }
    destruct (string_dec n (l1 f)) as [->|Q1]; [eapply Mv; eauto|]. destruct (string_dec n (l2 f)) as [->|Q2]; [eapply Mv; eauto|].
    rewrite Y3 in Hn by auto. rewrite X3 by auto. now apply I2.
  - intros n Hn Hw. rewrite (other_place f n _ _ Hf Y3 Hn) in Hw. rewrite (other_place f n _ _ Hf X3 Hn). exact (I3 n Hn Hw).
  - intros g bg k Hg Lg Hk. unfold upd. cbn [tags tall_push_field]. destruct (String.eqb_spec g f) as [->|N].
    + assert (bg = b) by (destruct Lg as (A & _), Lv as (B & _); eapply wide_fun; eauto). subst bg.
      destruct k as [|k]; [destruct Hk as [Hk|Hk]; [lia|]; destruct Y0 as (iy & Y0); cbn [lv] in Hk; congruence|].
      assert (Hk' : (3 <= k)%nat \/ mget (eg_rew e) (lv f k) = None).
      { destruct k as [|[|[|k]]]; cbn [lv] in *; [right; apply Y1; destruct Hk; [lia|auto]|right; apply Y2; destruct Hk; [lia|auto]|right; exact N2|left; lia]. }
      destruct (I4 f b k Hf Lv Hk') as (B1 & B2 & B3). replace (Z.of_nat (S k) + (C f + -1)) with (Z.of_nat k + C f) by lia.
      split; [lia|]. split; [intros T j; apply B2|]. intros Hk2 j Hj. rewrite <- B3 by (auto; lia). destruct k as [|[|k]]; cbn [lv]; [symmetry; now apply X1|symmetry; now apply X2|lia].
    + rewrite (other_lv f g k _ _ Hf Hg N Y3) in Hk. rewrite (other_lv f g k _ _ Hf Hg N X3). exact (I4 g bg k Hg Lg Hk).
  - rewrite (other_place f _ _ _ Hf Y3 meta_place). exact I5.
Qed.
Lemma tinv_pop r e m0 F C f : reg_ok r -> eg_ok r e -> tinv m0 F C e -> tag_field f -> one_inner (eg_sim e) f -> -1 <= C f ->
  runs (sim_pop_field e f) r (fun r' e' => eg_ok r' e' /\ others f (eg_sim e) (eg_sim e') /\ tinv m0 (fun T => tall_pop_field (F T) f) (upd C f 1) e').
Proof.
  intros Hr He Hi Hf H2 HC. destruct (tag_levels f Hf) as (b & Lv). eapply runs_weaken; [apply runs_and; [apply (pop_runs r e f); auto|apply (pop_rew r e f b); auto]|].
  intros r1 e1 R1 L1 [(E1 & _ & O1 & _ & A1) ((X0 & X1 & X2 & X3) & (Y0 & Y1 & Y2 & Y3))]. split; [exact E1|]. split; [exact X3|].
  destruct Hi as [I1 I2 I3 I4 I5]. names f. constructor.
  - intros T HT. eapply maccepts_ext; [intros i; symmetry; apply tview_pop; auto|]. apply A1; auto.
  - intros n x Hn.
    assert (Mv : forall a d y, moved b (mget (eg_rew e) a) (mget (eg_rew e1) d) -> moved b (mget (eg_sim e) a) (mget (eg_sim e1) d) -> mget (eg_rew e1) d = Some y ->
       exists v id id', y = (v, None, id) /\ mget (eg_sim e1) d = Some (v, None, id')).
    { intros a d y (P1 & _ & _ & P4) (_ & _ & _ & Q4) Hd. destruct (mget (eg_rew e) a) as [z|] eqn:Ez; [|rewrite (proj1 P1 eq_refl) in Hd; discriminate].
      destruct (I2 a z Ez) as (w & i1 & i2 & -> & Ez'). destruct (P4 w i1 eq_refl) as (i3 & P4'). destruct (Q4 w i2 Ez') as (i4 & Q4'). rewrite P4' in Hd. injection Hd as <-. eauto 6. }
    destruct (string_dec n f) as [->|Q0]; [eapply Mv; eauto|]. destruct (string_dec n (l1 f)) as [->|Q1]; [eapply Mv; eauto|]. destruct (string_dec n (l2 f)) as [->|Q2]; [congruence|].
    rewrite Y3 in Hn by auto. rewrite X3 by auto. now apply I2.
  - intros n Hn Hw. rewrite (other_place f n _ _ Hf Y3 Hn) in Hw. rewrite (other_place f n _ _ Hf X3 Hn). exact (I3 n Hn Hw).
  - intros g bg k Hg Lg Hk. unfold upd. cbn [tags tall_pop_field]. destruct (String.eqb_spec g f) as [->|N].
    + assert (bg = b) by (destruct Lg as (A & _), Lv as (B & _); eapply wide_fun; eauto). subst bg.
      assert (Hk' : (3 <= S k)%nat \/ mget (eg_rew e) (lv f (S k)) = None).
      { destruct k as [|[|k]]; cbn [lv] in *; [right; apply Y0; destruct Hk; [lia|auto]|right; apply Y1; destruct Hk; [lia|auto]|left; lia]. }
      destruct (I4 f b (S k) Hf Lv Hk') as (B1 & B2 & B3). replace (Z.of_nat k + (C f + 1)) with (Z.of_nat (S k) + C f) by lia.
      split; [lia|]. split; [intros T j; apply B2|]. intros Hk2 j Hj. destruct k as [|[|[|k]]]; [| |destruct (Z.eqb_spec (Z.of_nat 3 + C f) 0); [lia|]; cbn [lv]; now rewrite X2|lia].
      * rewrite <- B3 by (auto; lia). symmetry. now apply X0.
      * rewrite <- B3 by (auto; lia). symmetry. now apply X1.
    + rewrite (other_lv f g k _ _ Hf Hg N Y3) in Hk. rewrite (other_lv f g k _ _ Hf Hg N X3). exact (I4 g bg k Hg Lg Hk).
  - rewrite (other_place f _ _ _ Hf Y3 meta_place). exact I5.
Qed.
Definition upds (C : string -> Z) (fs : list string) (d : Z) (g : string) : Z := if existsb (String.eqb g) fs then C g + d else C g.
Lemma apart_in f fs : (forall g, In g fs -> apart f g) -> existsb (String.eqb f) fs = false.
Proof.
  intros H. destruct (existsb (String.eqb f) fs) eqn:E; [|reflexivity]. apply existsb_eqb in E. destruct (H f E f (or_introl eq_refl)) as (Q & _). now destruct Q.
Qed.
Lemma upds_cons C f fs d g : (forall h, In h fs -> apart f h) -> upds (upd C f d) fs d g = upds C (f :: fs) d g.
Proof.
  intros H. unfold upds, upd. cbn [existsb]. destruct (String.eqb_spec g f) as [->|N]; cbn [orb]; [|reflexivity]. now rewrite apart_in.
Qed.
Lemma exact_others f g m m' : apart f g -> others f m m' -> exact_in m g -> exact_in m' g.
Proof. intros Ha H (v & id & X). exists v, id. destruct (Ha g (or_introl eq_refl)) as (A & B & D). now rewrite H. Qed.
Lemma tinv_push_fields fs : forall r e m0 F C, reg_ok r -> eg_ok r e -> tinv m0 F C e -> (forall f, In f fs -> tag_field f) -> apart_list fs ->
  (forall f, In f fs -> exact_in (eg_sim e) f /\ mhas (eg_sim e) (l2 f) = false) ->
  runs (sfold sim_push_field fs e) r (fun r' e' => tinv m0 (fun T => fold_left tall_push_field fs (F T)) (upds C fs (-1)) e').
Proof.
  induction fs as [|f t IH]; intros r e m0 F C Hr He Hi Hf Ha Hd; cbn [sfold fold_left].
  { apply runs_ret; [auto|]. eapply tinv_ext; [| | | |exact Hi]; auto. }
  destruct Ha as [Ha1 Ha2]. destruct (Hd f (or_introl eq_refl)) as (D1 & D2). eapply runs_bind; [apply (tinv_push r e m0 F C f); auto; apply Hf; now left|]. intros r1 e1 R1 L1 (E1 & O1 & I1).
  eapply runs_weaken; [apply (IH r1 e1 m0 (fun T => tall_push_field (F T) f) (upd C f (-1))); auto|].
  - intros g Hg. apply Hf. now right.
  - intros g Hg. destruct (Hd g (or_intror Hg)) as (G1 & G2). split; [eapply exact_others; eauto|]. rewrite (mhas_step _ _ _ _ O1); [auto|]. apply (Ha1 g Hg). cbn; auto.
  - intros r2 e2 _ _ I2. eapply tinv_ext; [| | | |exact I2]; auto. intros g. now apply upds_cons.
Qed.
Lemma tinv_pop_fields fs : forall r e m0 F C, reg_ok r -> eg_ok r e -> tinv m0 F C e -> (forall f, In f fs -> tag_field f) -> apart_list fs ->
  (forall f, In f fs -> one_inner (eg_sim e) f /\ -1 <= C f) ->
  runs (sfold sim_pop_field fs e) r (fun r' e' => tinv m0 (fun T => fold_left tall_pop_field fs (F T)) (upds C fs 1) e').
Proof.
  induction fs as [|f t IH]; intros r e m0 F C Hr He Hi Hf Ha Hd; cbn [sfold fold_left].
  { apply runs_ret; [auto|]. eapply tinv_ext; [| | | |exact Hi]; auto. }
  destruct Ha as [Ha1 Ha2]. destruct (Hd f (or_introl eq_refl)) as (D1 & D2). eapply runs_bind; [apply (tinv_pop r e m0 F C f); auto; apply Hf; now left|]. intros r1 e1 R1 L1 (E1 & O1 & I1).
  eapply runs_weaken; [apply (IH r1 e1 m0 (fun T => tall_pop_field (F T) f) (upd C f 1)); auto|].
  - intros g Hg. apply Hf. now right.
  - intros g Hg. destruct (Hd g (or_intror Hg)) as (G1 & G2). split.
    + destruct G1 as [Q|Q]; [left|right]; (rewrite (mhas_step _ _ _ _ O1); [exact Q|]); apply (Ha1 g Hg); cbn; auto.
    + unfold upd. destruct (String.eqb g f); lia.
  - intros r2 e2 _ _ I2. eapply tinv_ext; [| | | |exact I2]; auto. intros g. now apply upds_cons.
Qed.

(** ** Whole lists of actions *)
Definition no_meta (a : action) : Prop := forall v, a <> ("SET_FIELD", VSet "METADATA" v).
Definition counts (C : string -> Z) (ops : dict Z) : Prop :=
  forall t f, In t tunnels -> In f (tun_fields t) -> C f = count_get ops (tun_pop t) - count_get ops (tun_push t).
Lemma count_inc_get ops a b : count_get (count_inc ops a) b = count_get ops b + (if String.eqb a b then 1 else 0).
Proof. unfold count_get at 1, count_inc. rewrite dict_get_set. destruct (String.eqb_spec a b) as [->|]; unfold count_get; destruct (dict_get ops b); lia. Qed.
Lemma op_names_check : forallb (fun t => forallb (fun u => negb (String.eqb (tun_push t) (tun_pop u)) && Bool.eqb (String.eqb (tun_push t) (tun_push u)) (String.eqb (tun_pop t) (tun_pop u))) tunnels) tunnels = true.
Proof. vm_compute. reflexivity. Qed.
Lemma op_names t u : In t tunnels -> In u tunnels -> String.eqb (tun_push t) (tun_pop u) = false /\ String.eqb (tun_push t) (tun_push u) = String.eqb (tun_pop t) (tun_pop u).
Proof.
  intros Ht Hu. assert (H := op_names_check). rewrite forallb_forall in H. specialize (H t Ht). rewrite forallb_forall in H. specialize (H u Hu).
  rewrite andb_true_iff, negb_true_iff, Bool.eqb_true_iff in H. exact H.
Qed.
Lemma in_field t u f : In t tunnels -> In u tunnels -> In f (tun_fields u) -> existsb (String.eqb f) (tun_fields t) = String.eqb (tun_push t) (tun_push u).
Proof.
  intros Ht Hu Hf. destruct (String.eqb_spec (tun_push t) (tun_push u)) as [E|E].
  - apply existsb_eqb. exact (same_tun u t f Hu Ht (eq_sym E) Hf).
  - destruct (existsb (String.eqb f) (tun_fields t)) eqn:Q; [|reflexivity]. apply existsb_eqb in Q. destruct (across t u f f Ht Hu E Q Hf f (or_introl eq_refl)) as (N & _). now destruct N.
Qed.
Record track (m0 : Match) (F : tall -> tall) (K : string -> Prop) (D : string -> Z) (C : string -> Z) (r : registry) (e : egress) : Prop := mkTr {
  tr_eg : eg_ok r e; tr_in : forall f, K f -> ~ inner_field f; tr_tame : tame_inv K D (eg_sim e); tr_D : forall n, 0 <= D n;
  tr_inv : tinv m0 F C e; tr_cnt : counts C (eg_ops e); tr_low : forall t f, In t tunnels -> In f (tun_fields t) -> - D (tun_push t) <= C f }.
Lemma tall_act_find T a : tall_act T a = match push_of a with Some t => fold_left tall_push_field (tun_fields t) T
  | None => match pop_of a with Some t => fold_left tall_pop_field (tun_fields t) T
            | None => match a with ("SET_FIELD", VSet f v) => tall_set f (vid_value f v) T | _ => T end end end.
Proof. unfold tall_act. rewrite <- (push_tag a), <- (pop_tag a). reflexivity. Qed.
Lemma tall_act_other T a : fst a <> "SET_FIELD" -> push_of a = None -> pop_of a = None -> tall_act T a = T.
Proof.
  intros H P Q. rewrite tall_act_find, P, Q. destruct a as [n v]. cbn [fst] in H.
  repeat match goal with |- context [match ?x with _ => _ end] => is_var x; destruct x; try reflexivity end. now destruct H.
Qed.
Lemma tall_step a l m0 F K D C r e : reg_ok r -> track m0 F K D C r e -> tame K D (a :: l) -> no_meta a ->
  runs (sim_action e a) r (fun r' e' => exists K' D' C', track m0 (fun T => tall_act (F T) a) K' D' C' r' e' /\ tame K' D' l).
Proof.
  intros Hr [He HK [I1 I2] HD Hi Hc Hl] Ht Hm. cbn [tame] in Ht. destruct (tag_push a) as [t|] eqn:Pu.
  - destruct Ht as (Hd & Hk & Ht). rewrite <- push_tag in Pu. assert (It : In t tunnels /\ tun_push t = fst a) by (apply find_tun_name in Pu; tauto). destruct It as [It Ea].
    assert (Ns : String.eqb (fst a) "SET_FIELD" = false).
    { destruct (String.eqb_spec (fst a) "SET_FIELD") as [E|E]; [|reflexivity]. destruct (set_not_tag a E) as [Q _]. congruence. }
    assert (Tf : forall f, In f (tun_fields t) -> tag_field f) by (intros f Hf; exists t; auto).
    unfold sim_action. rewrite Ns, Pu. eapply runs_bind.
    { apply runs_and; [apply push_fields_runs; auto; [now apply tunnel_apart|intros f Hf; apply (I2 t f It Hf); lia]|].
      apply (tinv_push_fields _ r e m0 F C); auto; [now apply tunnel_apart|]. intros f Hf. split; [apply I1; now apply Hk|apply (I2 t f It Hf); lia]. }
    intros r1 e1 R1 L1 [(E1 & O1 & S1 & U1 & _) V1]. apply runs_ret; [auto|].
    exists K, (fun n => if String.eqb n (tun_push t) then D n + 1 else D n), (upds C (tun_fields t) (-1)). split; [|exact Ht]. constructor; cbn [eg_sim eg_rew eg_ops].
    + destruct E1; constructor; auto.
    + exact HK.
    + split.
      * intros f Hf. destruct (in_dec string_dec f (tun_fields t)) as [Hin|Hn]; [apply (U1 f Hin)|]. destruct (I1 f Hf) as (v & id & X). exists v, id. rewrite S1; [exact X|].
        intros g Hg. split; [intros ->; contradiction|]. split; intros ->; apply (HK _ Hf); [apply inner_l1|apply inner_l2]; auto.
      * intros u f Iu Hf. destruct (String.eqb_spec (tun_push u) (tun_push t)) as [E|E].
        -- assert (Hf' := same_tun u t f Iu It E Hf). destruct (U1 f Hf') as (_ & U2 & U3). rewrite U2, U3. rewrite E in *. specialize (HD (tun_push t)).
           split; [lia|]. intros Q. apply (I2 t f It Hf'). lia.
        -- assert (Q : forall n, In n [f; l1 f; l2 f] -> mhas (eg_sim e1) n = mhas (eg_sim e) n).
           { intros n Hn. unfold mhas. rewrite S1; [reflexivity|]. intros g Hg. apply (across t u g f It Iu (not_eq_sym E) Hg Hf n Hn). }
           rewrite !Q by (cbn; auto). apply (I2 u f Iu Hf).
    + intros n. specialize (HD n). destruct (String.eqb n (tun_push t)); lia.
    + eapply tinv_ext; [| | | |exact V1]; auto. intros T. now rewrite tall_act_find, Pu.
    + intros u f Iu Hf. rewrite O1, !count_inc_get, <- Ea. unfold upds. rewrite (in_field t u f It Iu Hf). destruct (op_names t u It Iu) as (N1 & _). rewrite N1.
      rewrite (Hc u f Iu Hf). destruct (String.eqb (tun_push t) (tun_push u)); lia.
    + intros u f Iu Hf. unfold upds. rewrite (in_field t u f It Iu Hf). specialize (Hl u f Iu Hf). rewrite (String.eqb_sym (tun_push u)). destruct (String.eqb (tun_push t) (tun_push u)); lia.
  - destruct (tag_pop a) as [t|] eqn:Po.
    + destruct Ht as (Hd & Ht). rewrite <- push_tag in Pu. rewrite <- pop_tag in Po. assert (It : In t tunnels /\ tun_pop t = fst a) by (apply find_tun_name in Po; tauto). destruct It as [It Ea].
      assert (Ns : String.eqb (fst a) "SET_FIELD" = false).
      { destruct (String.eqb_spec (fst a) "SET_FIELD") as [E|E]; [|reflexivity]. destruct (set_not_tag a E) as [_ Q]. congruence. }
      assert (Tf : forall f, In f (tun_fields t) -> tag_field f) by (intros f Hf; exists t; auto).
      unfold sim_action. rewrite Ns, Pu, Po. eapply runs_bind.
      { apply runs_and; [apply pop_fields_runs; auto; [now apply tunnel_apart|intros f Hf; right; apply (I2 t f It Hf); lia]|].
        apply (tinv_pop_fields _ r e m0 F C); auto; [now apply tunnel_apart|]. intros f Hf. split; [right; apply (I2 t f It Hf); lia|specialize (Hl t f It Hf); lia]. }
      intros r1 e1 R1 L1 [(E1 & O1 & S1 & U1 & _) V1]. apply runs_ret; [auto|].
      exists (fun f => K f /\ ~ In f (tun_fields t)), (fun n => if String.eqb n (tun_push t) then 0 else D n), (upds C (tun_fields t) 1). split; [|exact Ht]. constructor; cbn [eg_sim eg_rew eg_ops].
      * destruct E1; constructor; auto.
      * intros f [Hf _]. auto.
      * split.
        -- intros f [Hf Hn]. destruct (I1 f Hf) as (v & id & X). exists v, id. rewrite S1; [exact X|].
           intros g Hg. split; [intros ->; contradiction|]. split; intros ->; apply (HK _ Hf); [apply inner_l1|apply inner_l2]; auto.
        -- intros u f Iu Hf. destruct (String.eqb_spec (tun_push u) (tun_push t)) as [E|E].
           ++ assert (Hf' := same_tun u t f Iu It E Hf). destruct (U1 f Hf') as (U2 & U3). rewrite U2, U3.
              split; [|reflexivity]. intros _. apply (I2 t f It Hf'). lia.
           ++ assert (Q : forall n, In n [f; l1 f; l2 f] -> mhas (eg_sim e1) n = mhas (eg_sim e) n).
              { intros n Hn. unfold mhas. rewrite S1; [reflexivity|]. intros g Hg. apply (across t u g f It Iu (not_eq_sym E) Hg Hf n Hn). }
              rewrite !Q by (cbn; auto). apply (I2 u f Iu Hf).
      * intros n. specialize (HD n). destruct (String.eqb n (tun_push t)); lia.
      * eapply tinv_ext; [| | | |exact V1]; auto. intros T. now rewrite tall_act_find, Pu, Po.
      * intros u f Iu Hf. rewrite O1, !count_inc_get, <- Ea. unfold upds. rewrite (in_field t u f It Iu Hf). destruct (op_names u t Iu It) as (N1 & _). rewrite (String.eqb_sym (tun_pop t) (tun_push u)), N1.
        destruct (op_names t u It Iu) as (_ & N2). rewrite <- N2. rewrite (Hc u f Iu Hf). destruct (String.eqb (tun_push t) (tun_push u)); lia.
      * intros u f Iu Hf. unfold upds. rewrite (in_field t u f It Iu Hf). specialize (Hl u f Iu Hf). rewrite (String.eqb_sym (tun_push u)).
        destruct (String.eqb_spec (tun_push t) (tun_push u)) as [E|E]; [|lia]. rewrite <- E in Hl. lia.
    + rewrite <- push_tag in Pu. rewrite <- pop_tag in Po. destruct (String.eqb_spec (fst a) "SET_FIELD") as [Es|Es].
      * destruct Ht as (f & v & Ev & Hs & Hn & Ht). assert (Hfm : f <> "METADATA") by (intros ->; apply (Hm v); destruct a; cbn in *; congruence).
        unfold sim_action. rewrite (proj2 (String.eqb_eq _ _) Es), Ev. unfold sim_set.
        eapply runs_bind; [apply append_runs; [auto|apply He]|]. intros r1 s1 R1 L1 (M1 & x & X & G).
        eapply runs_bind; [apply append_runs; [auto|eapply match_ok_mono; [exact L1|apply He]]|]. intros r2 w1 R2 L2 (W1 & y & Y & G').
        apply runs_ret; [auto|]. exists (fun g => K g \/ g = f), D, C. split; [|exact Ht]. constructor; cbn [eg_sim eg_rew eg_ops]; auto.
        -- constructor; cbn [eg_sim eg_rew].
           ++ eapply match_ok_mono; eauto.
           ++ auto.
           ++ eapply known_set; [apply (eo_known r e He)| |exact G]. exact Hs.
           ++ intros n. unfold mhas. rewrite G, G'. destruct (String.eqb f n); [auto|]. apply (eo_sub r e He).
        -- intros g [Hg|Hg]; [now apply HK|now rewrite Hg].
        -- split.
           ++ intros g Hg. unfold exact_in. rewrite G. destruct (String.eqb_spec f g) as [E|E]; [|destruct Hg as [Hg|Hg]; [now apply I1|congruence]].
              apply stored_exact in X as (id & ->). eauto.
           ++ intros u g Iu Hg. assert (Tg : tag_field g) by (exists u; auto). unfold mhas. rewrite !G.
              destruct (String.eqb_spec f (l1 g)) as [E|E]; [exfalso; apply Hn; rewrite E; now apply inner_l1|].
              destruct (String.eqb_spec f (l2 g)) as [E'|E']; [exfalso; apply Hn; rewrite E'; now apply inner_l2|]. apply (I2 u g Iu Hg).
        -- destruct Hi as [J1 J2 J3 J4 J5]. apply (tinv_ext m0 (fun T => tall_set f (vid_value f v) (F T)) _ C C (mkEg s1 w1 (eg_ops e))); auto.
           { intros T. rewrite tall_act_find, Pu, Po. destruct a as [an av]. cbn [fst snd] in Es, Ev. subst an av. reflexivity. }
           constructor; cbn [eg_sim eg_rew eg_ops].
           ++ intros T HT. eapply maccepts_ext; [intros i; symmetry; apply tview_set|]. exact (set_accepts r1 (eg_sim e) s1 f v x _ X G M1 r (eo_sim r e He) (J1 T HT)).
           ++ intros n z Hz. rewrite G' in Hz. rewrite G. destruct (String.eqb f n); [|now apply J2]. injection Hz as <-. apply stored_exact in X as (ix & ->). apply stored_exact in Y as (iy & ->). eauto 6.
           ++ intros n Hp Hz. rewrite G' in Hz. rewrite G. destruct (String.eqb_spec f n) as [|N]; [discriminate Hz|]. destruct (J3 n Hp Hz) as (B1 & B2). split; [exact B1|].
              intros T b j W Hj. unfold tall_set. cbn [flat]. rewrite (fbit_write f _ None _ n b j W Hj), (proj2 (String.eqb_neq _ _) (not_eq_sym N)). cbn [andb]. now apply (B2 T b).
           ++ intros g b k Hg Lg Hk. rewrite G' in Hk. rewrite G.
              assert (Q : (3 <= k)%nat \/ f <> lv g k). { destruct Hk as [Hk|Hk]; [auto|]. right. intros Q. rewrite (proj2 (String.eqb_eq _ _) Q) in Hk. discriminate. }
              assert (Hk' : (3 <= k)%nat \/ mget (eg_rew e) (lv g k) = None). { destruct Hk as [Hk|Hk]; [auto|]. destruct (String.eqb f (lv g k)); [discriminate|auto]. }
              destruct (J4 g b k Hg Lg Hk') as (B1 & B2 & B3). split; [exact B1|]. split.
              ** intros T j. unfold tall_set. cbn [tags]. destruct (tag_place f) as [[h d]|] eqn:Ep; [|apply B2]. destruct (place_inv f h d Ep) as (Hh & Hd & Ef).
                 destruct (String.eqb_spec g h) as [->|]; cbn [andb]; [|apply B2]. destruct (Nat.eqb_spec k d) as [->|]; [|apply B2]. destruct Q as [Q|Q]; [lia|contradiction].
              ** intros Hk2 j Hj. destruct Q as [Q|Q]; [lia|]. rewrite (proj2 (String.eqb_neq _ _) Q). now apply B3.
           ++ rewrite G', (proj2 (String.eqb_neq _ _) Hfm). exact J5.
      * unfold sim_action. rewrite (proj2 (String.eqb_neq _ _) Es), Pu, Po. apply runs_ret; [auto|]. exists K, D, C. split; [|exact Ht]. constructor; auto; [split; auto|].
        eapply tinv_ext; [| | | |exact Hi]; auto. intros T. now rewrite tall_act_other.
Qed.
Lemma tall_run l : forall m0 F K D C r e, reg_ok r -> track m0 F K D C r e -> tame K D l -> Forall no_meta l ->
  runs (sfold sim_action l e) r (fun r' e' => exists C', eg_ok r' e' /\ tinv m0 (fun T => fold_left tall_act l (F T)) C' e' /\ counts C' (eg_ops e')).
Proof.
  induction l as [|a l IH]; intros m0 F K D C r e Hr Htr Ht Hm; cbn [sfold fold_left].
  { apply runs_ret; [auto|]. exists C. split; [apply Htr|]. split; apply Htr. }
  inversion Hm as [|? ? Ha Hl]; subst. eapply runs_bind; [apply (tall_step a l m0 F K D C); auto|]. intros r1 e1 R1 L1 (K' & D' & C' & T1 & Ht1).
  apply (IH m0 (fun T => tall_act (F T) a) K' D' C' r1 e1); auto.
Qed.

(** ** Write-metadata at the end *)
Lemma meta_both r e wm : reg_ok r -> eg_ok r e -> mget (eg_rew e) "METADATA" = None ->
  runs (sim_metadata e wm) r (fun r' e' => match_ok r' (eg_sim e') /\ match_ok r' (eg_rew e') /\ eg_ops e' = eg_ops e /\
    (forall i, cbit (eg_sim e') i = ov (rmeta wm i) (cbit (eg_sim e) i)) /\ (forall i, cbit (eg_rew e') i = ov (rmeta wm i) (cbit (eg_rew e) i)) /\
    (forall n, n <> "METADATA" -> mget (eg_rew e') n = mget (eg_rew e) n /\ mget (eg_sim e') n = mget (eg_sim e) n)).
Proof.
  intros Hr Hi HA. assert (He := eo_sim r e Hi). unfold sim_metadata. destruct wm as [[wv wk]|]; cbn [rmeta].
  2:{ apply runs_ret; auto. split; [apply Hi|]. split; [apply Hi|]. auto. }
  eapply runs_bind with (post := fun r' s => match_ok r' s /\ (forall i, cbit s i = ov (rset "METADATA" wv wk i) (cbit (eg_sim e) i)) /\ forall n, n <> "METADATA" -> mget s n = mget (eg_sim e) n).
  - assert (Oth : forall s x, (forall n, mget s n = if String.eqb "METADATA" n then Some x else mget (eg_sim e) n) -> forall n, n <> "METADATA" -> mget s n = mget (eg_sim e) n).
    { intros s x G n Hn. rewrite G. destruct (String.eqb_spec "METADATA" n); [congruence|reflexivity]. }
    destruct (mget (eg_sim e) "METADATA") as [[[mv mk] mid]|] eqn:Em.
    + destruct wk as [wk|].
      * eapply runs_weaken; [apply append_runs; [auto|exact He]|]. intros r1 s R1 L1 (Hs & x & Hx & Gx). split; auto. split; [|eauto].
        intros i. unfold rset. destruct (slot_at i) as [sl|] eqn:Es; [|unfold cbit; rewrite Es; reflexivity].
        rewrite !(cbit_eq _ _ _ Es), Gx, String.eqb_sym. destruct (String.eqb_spec (sl_name sl) "METADATA") as [E|E]; cbn [andb ov]; [|reflexivity].
        rewrite E, Em. apply slot_at_in in Es as [Hs1 Hi1]. destruct x as [[v' mk'] id']. destruct Hx as [_ Hx]. rewrite (Hx sl Hs1 E) by lia.
        assert (Bv : Z.testbit (Z.lor (Z.land wv wk) (Z.land (Z.lnot wk) mv)) (i - sl_off sl) =
                     if Z.testbit wk (i - sl_off sl) then Z.testbit wv (i - sl_off sl) else Z.testbit mv (i - sl_off sl)).
        { rewrite Z.lor_spec, !Z.land_spec, Z.lnot_spec by lia. destruct (Z.testbit wk _), (Z.testbit wv _), (Z.testbit mv _); reflexivity. }
        cbn [ibit mask_bit]. rewrite Bv. destruct mk as [mk|]; cbn [mask_bit].
        -- rewrite Z.lor_spec. destruct (Z.testbit wk _), (Z.testbit mk _); reflexivity.
        -- destruct (Z.testbit wk _); reflexivity.
      * eapply runs_weaken; [apply append_runs; [auto|exact He]|]. intros r1 s R1 L1 (Hs & x & Hx & Gx). split; auto. split; [|eauto].
        intros i. now rewrite (cbit_upd _ s _ _ _ _ i Hx Gx eq_refl).
    + eapply runs_weaken; [apply append_runs; [auto|exact He]|]. intros r1 s R1 L1 (Hs & x & Hx & Gx). split; auto. split; [|eauto].
      intros i. unfold rset. destruct (slot_at i) as [sl|] eqn:Es; [|unfold cbit; rewrite Es; reflexivity].
      rewrite !(cbit_eq _ _ _ Es), Gx, String.eqb_sym. destruct (String.eqb_spec (sl_name sl) "METADATA") as [E|E]; cbn [andb ov]; [|reflexivity].
      rewrite E, Em. apply slot_at_in in Es as [Hs1 Hi1]. destruct x as [[v' mk'] id']. destruct Hx as [_ Hx]. rewrite (Hx sl Hs1 E) by lia.
      cbn [ibit]. destruct (mask_bit wk (i - sl_off sl)); reflexivity.
  - intros r1 s R1 L1 (Hs & Bs & Os).
    eapply runs_bind; [apply append_runs; [auto|eapply match_ok_mono; [exact L1|apply Hi]]|]. intros r2 w R2 L2 (Hw & y & Hy & Gy).
    apply runs_ret; auto. cbn [eg_sim eg_rew eg_ops]. split; [eapply match_ok_mono; [exact L2|auto]|]. split; [auto|]. split; [reflexivity|]. split; [auto|]. split.
    + intros k. unfold rset. destruct (slot_at k) as [sl|] eqn:Es; [|unfold cbit; rewrite Es; reflexivity].
      rewrite !(cbit_eq _ _ _ Es), Gy, String.eqb_sym. destruct (String.eqb_spec (sl_name sl) "METADATA") as [E|E]; cbn [andb ov]; [|reflexivity].
      rewrite E, HA. apply slot_at_in in Es as [Hs1 Hi1]. destruct y as [[v' mk'] id']. destruct Hy as [_ Hy]. rewrite (Hy sl Hs1 E) by lia.
      cbn [ibit]. destruct (mask_bit wk (k - sl_off sl)); reflexivity.
    + intros n Hn. rewrite Gy. destruct (String.eqb_spec "METADATA" n); [congruence|]. auto.
Qed.
Lemma rmeta_other wm i s : slot_at i = Some s -> sl_name s <> "METADATA" -> rmeta wm i = None.
Proof. intros Hs Hn. destruct wm as [[v mk]|]; cbn [rmeta]; [|reflexivity]. unfold rset. rewrite Hs, (proj2 (String.eqb_neq _ _) Hn). reflexivity. Qed.
Lemma meta_rw wm p i : metadata_header wm p i = apply_rw (rmeta wm) p i.
Proof. destruct wm as [[v mk]|]; [apply write_field_rw|reflexivity]. Qed.

(** ** The whole egress *)
Record tfacts (m : Match) (F : tall -> tall) (C : string -> Z) (e : egress) : Prop := mkTF {
  tf_acc : forall T, maccepts m (tview T) -> maccepts (eg_sim e) (tview (F T));
  tf_rew : forall i x, cbit (eg_rew e) i = Some x -> cbit (eg_sim e) i = Some x;
  tf_flat : forall i s, slot_at i = Some s -> tag_place (sl_name s) = None -> cbit (eg_rew e) i = None -> cbit (eg_sim e) i = cbit m i /\ forall T, tview (F T) i = tview T i;
  tf_tag : forall f b, tag_field f -> levels f b -> mget (eg_rew e) f = None -> 0 <= C f /\ (forall T j, tags (F T) f 0%nat j = tags T f (Z.to_nat (C f)) j) /\
    (C f = 0 -> forall j, 0 <= j < b -> ibit (mget (eg_sim e) f) j = ibit (mget m f) j);
  tf_mask : forall n v mk id, n <> "METADATA" -> mget (eg_rew e) n = Some (v, mk, id) -> mk = None }.
Lemma tall_egress r m i : reg_ok r -> match_ok r m -> known m -> (forall k, In k (mkeys m) -> ~ inner_field k) ->
  tame (fixed_by (items_view (m_items m))) (fun _ => 0) (al_iter (apply_actions i)) -> Forall no_meta (al_iter (apply_actions i)) ->
  runs (simulated_egress m i None) r (fun r' e => match_ok r' (eg_sim e) /\ match_ok r' (eg_rew e) /\
    exists C, counts C (eg_ops e) /\ tfacts m (tall_inst (al_iter (apply_actions i)) (write_metadata i)) C e).
Proof.
  intros Hr Hm Hk Hin Ht Hnm.
  assert (Hget : forall f, fixed_by (items_view (m_items m)) f -> exact_in m f).
  { intros f (v & H). apply items_view_in in H as (id & H). exists v, id. unfold mget. apply dict_in_get; [apply Hm|exact H]. }
  assert (No : forall k, inner_field k -> mhas m k = false).
  { intros k Hi. destruct (mhas m k) eqn:E; [|reflexivity]. apply mhas_keys in E. now elim (Hin k E). }
  unfold simulated_egress. eapply runs_bind with (post := fun r' s => s = m /\ r' = r); [apply runs_ret; auto|]. intros r1 s R1 L1 [-> ->].
  eapply runs_bind; [apply (tall_run _ m (fun T => T) (fixed_by (items_view (m_items m))) (fun _ => 0) (fun _ => 0) r (mkEg m match_new [])); auto|].
  - constructor; cbn [eg_sim eg_rew eg_ops]; auto.
    + constructor; cbn [eg_sim eg_rew]; auto using match_new_ok. intros n Q; discriminate Q.
    + intros f Hf. destruct (Hget f Hf) as (v & id & X). apply Hin. apply mhas_keys. unfold mhas. now rewrite X.
    + split; [exact Hget|]. intros t f It Hf. assert (tag_field f) by (exists t; auto). split; intros _; apply No; auto using inner_l1, inner_l2.
    + intros n. lia.
    + constructor; cbn [eg_sim eg_rew]; auto; try discriminate.
      intros f b k Hf Lv _. split; [lia|]. split; [intros T j; f_equal; lia|]. intros Hk2 j Hj. destruct k as [|[|k]]; cbn [lv].
      * reflexivity.
      * assert (Q := mhas_none _ _ (No _ (inner_l1 f Hf))). rewrite Q. reflexivity.
      * assert (Q := mhas_none _ _ (No _ (inner_l2 f Hf))). rewrite Q. destruct (Z.eqb_spec (Z.of_nat (S (S k)) + 0) 0); [lia|reflexivity].
    + intros t f It Hf. reflexivity.
    + intros t f It Hf. lia.
  - intros r2 e R2 L2 (C & E2 & [I1 I2 I3 I4 I5] & Hc). eapply runs_weaken; [apply (meta_both r2 e (write_metadata i) R2 E2 I5)|].
    intros r3 e3 R3 L3 (M3 & W3 & O3 & Bs & Br & Ot). split; [auto|]. split; [auto|]. exists C. split; [now rewrite O3|]. set (l := al_iter (apply_actions i)) in *. set (wm := write_metadata i) in *.
    assert (Mf : forall f, tag_field f -> f <> "METADATA") by (intros f Hf E; assert (Q := place_tag f 0 Hf ltac:(lia)); cbn [lv] in Q; rewrite E, meta_place in Q; discriminate).
    constructor.
    + intros T HT. apply (accepts_cbit _ _ (proj1 M3)). intros k x Hx. unfold tall_inst. rewrite tview_meta, meta_rw. unfold apply_rw. rewrite Bs in Hx.
      destruct (rmeta wm k); cbn [ov] in Hx; [congruence|]. apply (proj1 (accepts_cbit _ _ (proj1 (eo_sim r2 e E2))) (I1 T HT)). exact Hx.
    + intros k x Hx. rewrite Br in Hx. rewrite Bs. destruct (rmeta wm k); cbn [ov] in *; [auto|]. unfold cbit in *. destruct (slot_at k) as [sl|]; [|discriminate].
      destruct (mget (eg_rew e) (sl_name sl)) as [z|] eqn:Ez; [|discriminate]. destruct (I2 _ _ Ez) as (v & id & id' & -> & ->). exact Hx.
    + intros k s Hs Hp Hx. rewrite Br in Hx. rewrite Bs. destruct (rmeta wm k) as [y|] eqn:Er; cbn [ov] in *; [discriminate|].
      assert (Hw : mget (eg_rew e) (sl_name s) = None).
      { destruct (mget (eg_rew e) (sl_name s)) as [z|] eqn:Ez; [|reflexivity]. destruct (I2 _ _ Ez) as (v & id & id' & -> & _). rewrite (cbit_eq _ _ _ Hs), Ez in Hx. discriminate. }
      destruct (I3 _ Hp Hw) as (B1 & B2). split; [now rewrite !(cbit_eq _ _ _ Hs), B1|]. intros T. unfold tall_inst. rewrite tview_meta, meta_rw. unfold apply_rw. rewrite Er.
      destruct (slot_wide k s Hs) as (W & Hj). rewrite !(tview_at _ k s Hs), !(tview_bit _ _ _ _ W Hj), Hp. now apply (B2 T (sl_bits s)).
    + intros f b Hf Lv Hw. destruct (Ot f (Mf f Hf)) as (O1 & O2). rewrite O1 in Hw. rewrite O2. destruct (I4 f b 0%nat Hf Lv (or_intror Hw)) as (B1 & B2 & B3). cbn [Z.of_nat] in *. rewrite Z.add_0_l in *.
      split; [exact B1|]. split; [intros T j; apply B2|]. intros E j Hj. specialize (B3 ltac:(lia) j Hj). rewrite E in B3. exact B3.
    + intros n v mk id Hn Hg. rewrite (proj1 (Ot n Hn)) in Hg. destruct (I2 _ _ Hg) as (v' & i1 & i2 & Q & _). congruence.
Qed.

(** ** Shifting the rest of the second match *)
Definition shift_res (x : st Match) (r : registry) (post : registry -> Match -> Prop) (bad : Prop) : Prop :=
  runs x r post \/ (bad /\ exists r', reg_ok r' /\ rle r r' /\ x r = (r', Err UnboundLocalError)).
Lemma shift_bind c k r post post' bad : shift_res c r post bad -> (forall r1 m1, reg_ok r1 -> rle r r1 -> post r1 m1 -> shift_res (k m1) r1 post' bad) -> shift_res (sbind c k) r post' bad.
Proof.
  intros [(r1 & m1 & E & R & L & P)|(B & r1 & R & L & E)] H.
  - destruct (H r1 m1 R L P) as [(r2 & m2 & E2 & R2 & L2 & P2)|(B & r2 & R2 & L2 & E2)].
    + left. exists r2, m2. unfold sbind. rewrite E. split; [auto|]. split; [auto|]. split; [eapply rle_trans; eauto|auto].
    + right. split; [auto|]. exists r2. split; [auto|]. split; [eapply rle_trans; eauto|]. unfold sbind. now rewrite E.
  - right. split; [auto|]. exists r1. split; [auto|]. split; [auto|]. unfold sbind. now rewrite E.
Qed.
(** what is found where after the fields [fs] have been moved in by [c] levels *)
Record moved_in (c : string -> Z) (fs : list string) (m m' : Match) : Prop := mkMI {
  mi_other : forall n, (forall f k, In f fs -> n <> lv f k) -> mget m' n = mget m n;
  mi_lv : forall f b k j, In f fs -> levels f b -> (k <= 2)%nat -> 0 <= j < b -> ibit (mget m' (lv f k)) j = if Z.of_nat k =? c f then ibit (mget m f) j else None;
  mi_fit : forall f, In f fs -> mhas m f = true -> 0 <= c f <= 2 }.
Definition ready (c : string -> Z) (m : Match) (fs : list string) : Prop :=
  forall f, In f fs -> tag_field f /\ mhas m (l1 f) = false /\ mhas m (l2 f) = false /\ (c f < 0 -> mhas m f = false).
Definition too_deep (c : string -> Z) (m : Match) (fs : list string) : Prop := exists f, In f fs /\ mhas m f = true /\ 3 <= c f.
Lemma ready_app c m fs gs : ready c m (fs ++ gs) <-> ready c m fs /\ ready c m gs.
Proof. unfold ready. setoid_rewrite in_app_iff. firstorder. Qed.
Lemma lv_other f g k : tag_field f -> tag_field g -> f <> g -> forall d, lv f k <> lv g d.
Proof.
  intros Hf Hg N d. assert (Q : forall x n, exists n', (n' <= 2)%nat /\ lv x n = lv x n') by (intros x [|[|n]]; [exists 0%nat|exists 1%nat|exists 2%nat]; split; auto; lia).
  destruct (Q f k) as (k' & Hk & ->). destruct (Q g d) as (d' & Hd & ->). now apply lv_neq.
Qed.
Lemma ready_step c m m' fs gs : moved_in c fs m m' -> ready c m gs -> (forall f g, In f fs -> In g gs -> f <> g) -> (forall f, In f fs -> tag_field f) -> ready c m' gs /\ (forall g, In g gs -> mget m' g = mget m g).
Proof.
  intros H Hg Hd Hf. assert (Q : forall g k, In g gs -> mget m' (lv g k) = mget m (lv g k)).
  { intros g k Ig. apply (mi_other _ _ _ _ H). intros f d If. apply lv_other; [apply (Hg g Ig)|auto|]. intros E. now apply (Hd f g If Ig). }
  split; [|intros g Ig; apply (Q g 0%nat Ig)]. intros g Ig. destruct (Hg g Ig) as (A & B & D & E). unfold mhas in *.
  rewrite (Q g 0%nat Ig : mget m' g = mget m g), (Q g 1%nat Ig : mget m' (l1 g) = mget m (l1 g)), (Q g 2%nat Ig : mget m' (l2 g) = mget m (l2 g)). auto.
Qed.
Lemma moved_in_app c fs gs m m1 m2 : (forall f, In f (fs ++ gs) -> tag_field f) -> (forall f g, In f fs -> In g gs -> f <> g) ->
  moved_in c fs m m1 -> moved_in c gs m1 m2 -> moved_in c (fs ++ gs) m m2.
Proof.
  intros Ht Hd [A1 A2 A3] [B1 B2 B3]. assert (Tf : forall f, In f fs -> tag_field f) by (intros f H; apply Ht; apply in_or_app; auto). assert (Tg : forall f, In f gs -> tag_field f) by (intros f H; apply Ht; apply in_or_app; auto).
  assert (Q1 : forall f k, In f fs -> mget m2 (lv f k) = mget m1 (lv f k)) by (intros f k If; apply B1; intros g d Ig; apply lv_other; auto).
  assert (Q2 : forall g k, In g gs -> mget m1 (lv g k) = mget m (lv g k)) by (intros g k Ig; apply A1; intros f d If; apply lv_other; auto; intros E; now apply (Hd f g)).
  constructor.
  - intros n Hn. rewrite B1, A1; auto; intros f k If; apply Hn; apply in_or_app; auto.
  - intros f b k j If Lv Hk Hj. apply in_app_or in If as [If|If]; [rewrite Q1 by auto; now apply (A2 f b)|]. rewrite (B2 f b) by auto. now rewrite (Q2 f 0%nat If : mget m1 f = mget m f).
  - intros f If Hh. apply in_app_or in If as [If|If]; [auto|]. apply B3; [auto|]. unfold mhas in *. now rewrite (Q2 f 0%nat If : mget m1 f = mget m f).
Qed.
Lemma bits_none b x : moved b None x -> forall j, ibit x j = None.
Proof. intros H j. destruct H as (H & _). now rewrite (proj1 H eq_refl). Qed.
Lemma shift_one c m f r : reg_ok r -> match_ok r m -> known m -> ready c m [f] -> c f <> 0 ->
  shift_res (if 0 <? c f then demote_match m f (c f) else promote_match m f (- c f)) r (fun r' m' => match_ok r' m' /\ known m' /\ moved_in c [f] m m') (too_deep c m [f]).
Proof.
  intros Hr Hm Hk Hy Hc. destruct (Hy f (or_introl eq_refl)) as (Hf & H1 & H2 & H0). destruct (tag_levels f Hf) as (b & Lv). assert (Ti := tidy_known m f Hk Hf).
  assert (N1 := mhas_none _ _ H1). assert (N2 := mhas_none _ _ H2). assert (Lu : forall b', levels f b' -> b' = b) by (intros b' (A & _); destruct Lv as (B & _); eapply wide_fun; eauto).
  assert (Same : mhas m f = false -> c f < 0 \/ 3 <= c f -> moved_in c [f] m m).
  { intros E Hcf. apply mhas_none in E. constructor.
    - auto.
    - intros g b' k j [<-|[]] Lg Hk2 Hj. destruct (Z.eqb_spec (Z.of_nat k) (c f)); [lia|]. destruct k as [|[|k]]; cbn [lv]; [now rewrite E|now rewrite N1|now rewrite N2].
    - intros g [<-|[]] Q. unfold mhas in Q. rewrite E in Q. discriminate. }
  destruct (Z.ltb_spec 0 (c f)) as [P|P].
  - destruct (Z_le_gt_dec 3 (c f)) as [P3|P3].
    + destruct (mhas m f) eqn:E0.
      * right. split; [exists f; split; [now left|auto]|]. exists r. split; [auto|]. split; [apply rle_refl|]. rewrite (demote_err r m f (c f) Hm Ti) by (auto; lia). now rewrite H1, H2.
      * left. unfold demote_match. destruct (Z.eqb_spec (c f) 0); [lia|]. rewrite (variations_none m f Ti E0 H1 H2). cbn [sort_desc fold_right sfold]. eapply runs_bind; [apply runs_ret with (post := fun r' mb => fst mb = m /\ r' = r); auto|].
        intros r1 [m1 b1] R1 L1 [Em ->]. cbn [fst] in Em. subst m1. apply runs_ret; auto.
    + left. assert (c f = 1 \/ c f = 2) as [E|E] by lia; rewrite E.
      * eapply runs_weaken; [apply (demote1_runs r m f b); auto|]. intros r1 m1 R1 L1 (M1 & S1). split; [auto|]. split; [eapply known_shift; eauto|]. destruct S1 as (B0 & B1 & B2 & B3). rewrite N1 in B2. constructor.
        -- intros n Hn. apply B3; [apply (Hn f 0%nat)|apply (Hn f 1%nat)|apply (Hn f 2%nat)]; now left.
        -- intros g b' k j [<-|[]] Lg Hk2 Hj. rewrite (Lu b' Lg) in Hj. rewrite E. destruct k as [|[|[|k]]]; cbn [lv Z.of_nat Pos.of_succ_nat Pos.succ Z.eqb Pos.eqb]; [now apply (bits_none b)|symmetry; now apply B1|now apply (bits_none b)|lia].
        -- intros g [<-|[]] _. lia.
      * eapply runs_weaken; [apply (demote2_runs r m f b); auto|]. intros r1 m1 R1 L1 (M1 & S1). split; [auto|]. split; [eapply known_shift; eauto|]. destruct S1 as (B0 & B1 & B2 & B3). constructor.
        -- intros n Hn. apply B3; [apply (Hn f 0%nat)|apply (Hn f 1%nat)|apply (Hn f 2%nat)]; now left.
        -- intros g b' k j [<-|[]] Lg Hk2 Hj. rewrite (Lu b' Lg) in Hj. rewrite E. destruct k as [|[|[|k]]]; cbn [lv Z.of_nat Pos.of_succ_nat Pos.succ Z.eqb Pos.eqb]; [now apply (bits_none b)|now apply (bits_none b)|symmetry; now apply B2|lia].
        -- intros g [<-|[]] _. lia.
  - left. assert (E0 := H0 ltac:(lia)). unfold promote_match. destruct (Z.eqb_spec (- c f) 0); [lia|]. rewrite (variations_none m f Ti E0 H1 H2). cbn [sfold]. apply runs_ret; [auto|]. split; [auto|]. split; [auto|]. apply Same; [auto|lia].
Qed.
Lemma moved_in_nil c m : moved_in c [] m m.
Proof. constructor; [auto| |]; intros f; intros; contradiction. Qed.
Lemma moved_in_zero c m fs : (forall f, In f fs -> c f = 0) -> ready c m fs -> moved_in c fs m m.
Proof.
  intros H Hy. constructor; [auto| |].
  - intros f b k j If Lv Hk Hj. destruct (Hy f If) as (_ & N1 & N2 & _). apply mhas_none in N1, N2. rewrite (H f If). destruct k as [|[|k]]; cbn [lv]; [reflexivity|now rewrite N1|rewrite N2; destruct (Z.eqb_spec (Z.of_nat (S (S k))) 0); [lia|reflexivity]].
  - intros f If _. rewrite (H f If). lia.
Qed.
Lemma too_deep_weak c m m1 (fs gs hs : list string) : (forall f, In f gs -> In f hs) -> (forall f, In f gs -> mget m1 f = mget m f) -> too_deep c m1 gs -> too_deep c m hs.
Proof. intros H G (f & If & Hh & Hc). exists f. split; [auto|]. split; [|auto]. unfold mhas in *. now rewrite <- G. Qed.
Lemma shift_fields c op fs : (forall m f r, reg_ok r -> match_ok r m -> known m -> ready c m [f] -> In f fs -> shift_res (op m f) r (fun r' m' => match_ok r' m' /\ known m' /\ moved_in c [f] m m') (too_deep c m [f])) ->
  forall r m, reg_ok r -> match_ok r m -> known m -> ready c m fs -> NoDup fs ->
  shift_res (sfold op fs m) r (fun r' m' => match_ok r' m' /\ known m' /\ moved_in c fs m m') (too_deep c m fs).
Proof.
  induction fs as [|f t IH]; intros Hop r m Hr Hm Hk Hy ND; cbn [sfold].
  { left. apply runs_ret; auto. split; [auto|]. split; [auto|]. apply moved_in_nil. }
  inversion ND as [|? ? Nf NDt]; subst. destruct (proj1 (ready_app c m [f] t) Hy) as [Y1 Y2].
  assert (Dj : forall x g, In x [f] -> In g t -> x <> g) by (intros x g [<-|[]] Ig ->; contradiction). assert (Tf : forall x, In x [f] -> tag_field x) by (intros x Hx; apply (Y1 x Hx)).
  eapply shift_bind.
  - destruct (Hop m f r Hr Hm Hk Y1 (or_introl eq_refl)) as [H|(B & H)]; [left; exact H|right]. split; [|exact H]. eapply (too_deep_weak c m m [f] [f]); [|reflexivity|exact B]. intros x [<-|[]]. now left.
  - intros r1 m1 R1 L1 (M1 & K1 & V1). destruct (ready_step c m m1 [f] t V1 Y2 Dj Tf) as [Y3 G3].
    assert (Hop' : forall m g r, reg_ok r -> match_ok r m -> known m -> ready c m [g] -> In g t -> shift_res (op m g) r (fun r' m' => match_ok r' m' /\ known m' /\ moved_in c [g] m m') (too_deep c m [g])).
    { intros m' g r' A1 A2 A3 A4 A5. apply Hop; auto. now right. }
    destruct (IH Hop' r1 m1 R1 M1 K1 Y3 NDt) as [(r2 & m2 & E2 & R2 & L2 & M2 & K2 & V2)|(B & H)].
    + left. exists r2, m2. split; [auto|]. split; [auto|]. split; [auto|]. split; [auto|]. split; [auto|]. apply (moved_in_app c [f] t m m1 m2); auto. intros x Hx. apply (Hy x Hx).
    + right. split; [|exact H]. eapply (too_deep_weak c m m1 t t); [|exact G3|exact B]. intros x Hx. now right.
Qed.
Lemma all_fields_nodup : NoDup (flat_map tun_fields tunnels).
Proof.
  assert (H : forall l : list string, (fix nd l := match l with [] => true | x :: t => negb (existsb (String.eqb x) t) && nd t end) l = true -> NoDup l).
  { induction l as [|x t IH]; [constructor|]. rewrite andb_true_iff, negb_true_iff. intros [A B]. constructor; [|auto]. intros Hx. apply existsb_eqb in Hx. congruence. }
  apply H. vm_compute. reflexivity.
Qed.
Lemma fields_split t ts : NoDup (flat_map tun_fields (t :: ts)) -> NoDup (tun_fields t) /\ NoDup (flat_map tun_fields ts) /\ forall f g, In f (tun_fields t) -> In g (flat_map tun_fields ts) -> f <> g.
Proof.
  cbn [flat_map]. induction (tun_fields t) as [|x l IH]; cbn [app]; intros H; [split; [constructor|]; split; [exact H|]; intros f g []|].
  inversion H as [|? ? Nx ND]; subst. destruct (IH ND) as (A & B & D). split; [constructor; [|exact A]; intros Q; apply Nx; apply in_or_app; auto|]. split; [exact B|].
  intros f g [<-|If] Ig; [|now apply D]. intros <-. apply Nx. apply in_or_app. auto.
Qed.
Lemma shift_all C ops ts : counts C ops -> (forall t, In t ts -> In t tunnels) -> NoDup (flat_map tun_fields ts) ->
  forall r m, reg_ok r -> match_ok r m -> known m -> ready C m (flat_map tun_fields ts) ->
  shift_res (sfold (shift_tunnel ops) ts m) r (fun r' m' => match_ok r' m' /\ known m' /\ moved_in C (flat_map tun_fields ts) m m') (too_deep C m (flat_map tun_fields ts)).
Proof.
  intros Hc. induction ts as [|t ts IH]; intros Ht ND r m Hr Hm Hk Hy; cbn [sfold].
  { left. apply runs_ret; auto. split; [auto|]. split; [auto|]. apply moved_in_nil. }
  destruct (fields_split t ts ND) as (ND1 & ND2 & Dj). cbn [flat_map] in *. destruct (proj1 (ready_app C m _ _) Hy) as [Y1 Y2]. assert (It := Ht t (or_introl eq_refl)).
  assert (Tf : forall x, In x (tun_fields t) -> tag_field x) by (intros x Hx; exists t; auto).
  assert (S1 : shift_res (shift_tunnel ops m t) r (fun r' m' => match_ok r' m' /\ known m' /\ moved_in C (tun_fields t) m m') (too_deep C m (tun_fields t))).
  { unfold shift_tunnel. set (n := count_get ops (tun_pop t) - count_get ops (tun_push t)). assert (Cn : forall f, In f (tun_fields t) -> C f = n) by (intros f If; apply (Hc t f It If)). cbv zeta.
    destruct (0 <? n) eqn:E1; [|destruct (n <? 0) eqn:E2].
    - apply shift_fields; auto. intros m' f r' A1 A2 A3 A4 A5. assert (Q := shift_one C m' f r' A1 A2 A3 A4). rewrite (Cn f A5), E1 in Q. apply Q. lia.
    - apply shift_fields; auto. intros m' f r' A1 A2 A3 A4 A5. assert (Q := shift_one C m' f r' A1 A2 A3 A4). rewrite (Cn f A5), E1 in Q. apply Q. lia.
    - left. apply runs_ret; [auto|]. split; [auto|]. split; [auto|]. apply moved_in_zero; [|auto]. intros f If. rewrite (Cn f If). lia. }
  eapply shift_bind.
  - destruct S1 as [H|(B & H)]; [left; exact H|right]. split; [|exact H]. eapply (too_deep_weak C m m [] (tun_fields t)); [|reflexivity|exact B]. intros x Hx. apply in_or_app. auto.
  - intros r1 m1 R1 L1 (M1 & K1 & V1). destruct (ready_step C m m1 _ _ V1 Y2 Dj Tf) as [Y3 G3].
    destruct (IH (fun u Hu => Ht u (or_intror Hu)) ND2 r1 m1 R1 M1 K1 Y3) as [(r2 & m2 & E2 & R2 & L2 & M2 & K2 & V2)|(B & H)].
    + left. exists r2, m2. split; [auto|]. split; [auto|]. split; [auto|]. split; [auto|]. split; [auto|]. apply (moved_in_app C _ _ m m1 m2); auto. intros x Hx. apply (Hy x Hx).
    + right. split; [|exact H]. eapply (too_deep_weak C m m1 [] (flat_map tun_fields ts)); [|exact G3|exact B]. intros x Hx. apply in_or_app. auto.
Qed.

(** ** Merging *)
Lemma shape_cbit m n b j : wide n b -> 0 <= j < b -> exists i s, slot_at i = Some s /\ sl_name s = n /\ cbit m i = ibit (mget m n) j /\ (forall p, fbit p n j = p i).
Proof.
  intros W Hj. destruct (fbit_at n b (fun _ => true) j W Hj) as (s & Hs & Hn & Ha & _). exists (sl_off s + j), s. split; [exact Ha|]. split; [exact Hn|]. split.
  - rewrite (cbit_eq _ _ _ Ha), Hn. f_equal. lia.
  - intros p. now apply fbit_slot.
Qed.
Definition tboth (a b : core) (T : tall) : Prop :=
  maccepts (rmatch a) (tview T) /\ maccepts (rmatch b) (tview (tall_inst (al_iter (apply_actions (inst a))) (write_metadata (inst a)) T)).
(** the second match asks about a tag found more than two levels deep *)
Definition tdeep (a b : core) : Prop := exists f d, tag_field f /\ mhas (rmatch b) f = true /\ (3 <= d)%nat /\
  forall T j, tags (tall_inst (al_iter (apply_actions (inst a))) (write_metadata (inst a)) T) f 0%nat j = tags T f d j.
Definition outer (m : Match) : Prop := known m /\ forall k, In k (mkeys m) -> ~ inner_field k.
Lemma outer_lv m f k x j : outer m -> tag_field f -> (k <= 2)%nat -> ibit (mget m (lv f k)) j = Some x -> k = 0%nat.
Proof.
  intros [_ H] Hf Hk Hb. destruct k as [|k]; [reflexivity|]. exfalso. apply (H (lv f (S k))).
  - apply mhas_keys. unfold mhas. destruct (mget m (lv f (S k))); [reflexivity|discriminate Hb].
  - destruct k as [|k]; [now apply inner_l1|now apply inner_l2].
Qed.
Lemma core_merge_tall r a b openflow : reg_ok r -> match_ok r (rmatch a) -> match_ok r (rmatch b) -> outer (rmatch a) -> outer (rmatch b) ->
  tame (fixed_by (items_view (m_items (rmatch a)))) (fun _ => 0) (al_iter (apply_actions (inst a))) -> Forall no_meta (al_iter (apply_actions (inst a))) ->
  exists r', reg_ok r' /\ rle r r' /\
  (((~ exists T, tboth a b T) /\ core_merge a b openflow r = (r', Err MergeExceptionNoOverlap)) \/
   (tdeep a b /\ (exists T, tboth a b T) /\ core_merge a b openflow r = (r', Err UnboundLocalError)) \/
   (exists m T0, tboth a b T0 /\ match_ok r' m /\ (forall T, maccepts m (tview T) <-> tboth a b T) /\
      core_merge a b openflow r = (r', finish_merge a b m openflow))).
Proof.
  intros Hr Ma Mb Oa Ob Ht Hnm. remember (core_merge a b openflow r) as res eqn:EM. unfold core_merge in EM.
  destruct (tall_egress r (rmatch a) (inst a) Hr Ma (proj1 Oa) (proj2 Oa) Ht Hnm) as (r1 & e & E1 & R1 & L1 & Ms & Mw & C & HC & [F1 F2 F3 F4 F5]).
  unfold tboth, tdeep. set (F := tall_inst (al_iter (apply_actions (inst a))) (write_metadata (inst a))) in *.
  destruct (match_wc_ok _ _ Ms) as (wa & Ewa & Wa & _ & Aa). destruct (match_wc_ok _ _ Mb) as (wb & Ewb & Wb & _ & Ab).
  unfold sbind at 1 in EM. rewrite E1 in EM. unfold sbind at 1, slift at 1 in EM. rewrite Ewa in EM. unfold sbind at 1, slift at 1 in EM. rewrite Ewb in EM.
  destruct (wildcard_intersect wa wb =? 0) eqn:E0.
  { exists r1. split; auto. split; auto. left. split; [|exact EM]. intros (T & Hp1 & Hp2).
    apply Z.eqb_eq in E0. apply wildcard_intersect_zero in E0. apply E0. exists (tview (F T)). split; [apply Aa; auto|apply Ab; auto]. }
  assert (Hov : exists q, maccepts (eg_sim e) q /\ maccepts (rmatch b) q).
  { destruct (wildcard_intersect_ok wa wb (proj1 Wa)) as [_ Hz]; [intros E; rewrite E in E0; discriminate|].
    destruct (zfree_nonempty _ Hz) as (q & Hq). apply wildcard_intersect_accepts in Hq as [H1 H2]. exists q. split; [now apply Aa|now apply Ab]. }
  destruct Hov as (q & Hq1 & Hq2).
  assert (He : egress_ok r1 match_new (cbit (eg_rew e)) (mkEg (eg_rew e) (eg_rew e) [])).
  { constructor; cbn [eg_sim eg_rew eg_ops]; auto. intros k. unfold ov. destruct (cbit (eg_rew e) k); [reflexivity|]. unfold cbit. destruct (slot_at k); reflexivity. }
  destruct (second_runs r1 r match_new _ _ (rmatch b) R1 He Mb L1) as (r2 & m2 & E2 & R2 & L2 & M2 & B2 & K2 & G2). cbn [eg_rew] in *.
  assert (Lr : rle r r2) by (eapply rle_trans; eauto). assert (Mb1 := match_ok_mono _ _ _ Lr Mb).
  assert (O2 : outer m2).
  { split; intros k Hk; apply mhas_keys in Hk; apply K2 in Hk; apply mhas_keys in Hk; [apply (proj1 Ob k Hk)|apply (proj2 Ob k Hk)]. }
  assert (Mf : forall f, tag_field f -> f <> "METADATA") by (intros f Hf E; assert (Q := place_tag f 0 Hf ltac:(lia)); cbn [lv] in Q; rewrite E, meta_place in Q; discriminate).
  (* tags of the second match that are left *)
  assert (Tg : forall f b' j x, tag_field f -> levels f b' -> 0 <= j < b' -> ibit (mget m2 f) j = Some x -> mget (eg_rew e) f = None /\ mget m2 f = mget (rmatch b) f).
  { intros f b' j x Hf Lv Hj Hx. assert (Q := G2 f (Mf f Hf)). unfold mhas in Q. destruct (mget (eg_rew e) f) as [y|]; [rewrite Q in Hx; discriminate|auto]. }
  assert (Tr : forall f b' j, tag_field f -> levels f b' -> 0 <= j < b' -> ibit (mget (eg_rew e) f) j = None -> mget (eg_rew e) f = None).
  { intros f b' j Hf Lv Hj Hn. destruct (mget (eg_rew e) f) as [[[v mk] id]|] eqn:E; [|reflexivity]. rewrite (F5 f v mk id (Mf f Hf) E) in Hn. discriminate. }
  (* a packet that does it *)
  assert (Hex : exists T0, maccepts (rmatch a) (tview T0) /\ maccepts (rmatch b) (tview (F T0))).
  { destruct (match_wc_ok _ _ Ma) as (w1 & _ & W1 & _ & A1). destruct (zfree_nonempty _ (proj2 W1)) as (pa & Hpa). apply A1 in Hpa.
    exists (Tall (fun i => match cbit (eg_rew e) i with Some _ => pa i | None => q i end)
      (fun f k j => match k with O => if mhas (eg_rew e) f || negb (C f =? 0) then fbit pa f j else fbit q f j | S _ => fbit q f j end)).
    set (T0 := Tall _ _). rewrite accepts_cbit in Hpa, Hq1, Hq2 by (apply Ma || apply Ms || apply Mb).
    assert (H1 : maccepts (rmatch a) (tview T0)).
    { rewrite (accepts_cbit _ _ (proj1 Ma)). intros i x Hx. destruct (slot_at i) as [s|] eqn:Hi; [|unfold cbit in Hx; rewrite Hi in Hx; discriminate]. destruct (slot_wide i s Hi) as (W & Hj); destruct (tag_place (sl_name s)) as [[f k]|] eqn:Ep.
      - rewrite (tview_at _ i s Hi). assert (Hx0 := Hx). rewrite (cbit_eq _ _ _ Hi) in Hx. destruct (place_inv _ f k Ep) as (Hf & Hk & El). rewrite El in *.
        destruct (tag_levels f Hf) as (b' & Lv). assert (sl_bits s = b') as E by (eapply wide_fun; [exact W|now apply lv_wide]). rewrite E in *.
        assert (k = 0%nat) by (eapply (outer_lv (rmatch a)); eauto). subst k. rewrite (tview_lv _ f b' 0) by (auto; lia). cbn [lv] in *. subst T0. cbn [tags].
        assert (Fx : forall p, fbit p f (i - sl_off s) = p i). { intros p. apply slot_at_in in Hi as [Hs Hi]. rewrite (fbit_slot _ _ s _ Hs El). f_equal. lia. }
        rewrite !Fx. unfold mhas. destruct (mget (eg_rew e) f) eqn:Ew; cbn [orb]; [now apply Hpa|]. destruct (Z.eqb_spec (C f) 0) as [Ec|Ec]; cbn [negb]; [|now apply Hpa].
        apply Hq1. rewrite (cbit_eq _ _ _ Hi), El. rewrite (proj2 (proj2 (F4 f b' Hf Lv Ew)) Ec) by auto. exact Hx.
      - unfold tview. rewrite Hi, Ep. subst T0. cbn [flat]. destruct (cbit (eg_rew e) i) eqn:Er; [now apply Hpa|]. apply Hq1. now rewrite (proj1 (F3 i s Hi Ep Er)). }
    split; [exact H1|]. apply F1 in H1. rewrite (accepts_cbit _ _ (proj1 Ms)) in H1. rewrite (accepts_cbit _ _ (proj1 Mb)). intros i x Hx. destruct (cbit (eg_rew e) i) as [y|] eqn:Er.
    { apply F2 in Er. rewrite (H1 i y Er). rewrite <- (Hq1 i y Er). now apply Hq2. }
    destruct (slot_at i) as [s|] eqn:Hi; [|unfold cbit in Hx; rewrite Hi in Hx; discriminate]. destruct (slot_wide i s Hi) as (W & Hj). destruct (tag_place (sl_name s)) as [[f k]|] eqn:Ep.
    - rewrite (tview_at _ i s Hi). assert (Hx0 := Hx). rewrite (cbit_eq _ _ _ Hi) in Hx. rewrite (cbit_eq _ _ _ Hi) in Er. destruct (place_inv _ f k Ep) as (Hf & Hk & El). rewrite El in *.
      destruct (tag_levels f Hf) as (b' & Lv). assert (sl_bits s = b') as E by (eapply wide_fun; [exact W|now apply lv_wide]). rewrite E in *.
      assert (k = 0%nat) by (eapply (outer_lv (rmatch b)); eauto). subst k. rewrite (tview_lv _ f b' 0) by (auto; lia). cbn [lv] in *. assert (Hw := Tr f b' _ Hf Lv Hj Er).
      destruct (F4 f b' Hf Lv Hw) as (C0 & CT & _). rewrite CT. subst T0. cbn [tags]. assert (Q : fbit q f (i - sl_off s) = x).
      { rewrite (fbit_slot _ _ s _ (proj1 (slot_at_in _ _ Hi)) El). replace (sl_off s + (i - sl_off s)) with i by lia. now apply Hq2. }
      destruct (Z.to_nat (C f)) eqn:Ec; [|exact Q]. unfold mhas. rewrite Hw. replace (C f) with 0 by lia. exact Q.
    - rewrite (proj2 (F3 i s Hi Ep Er)). unfold tview. rewrite Hi, Ep. subst T0. cbn [flat]. rewrite Er. now apply Hq2. }
  assert (Y2 : ready C m2 (flat_map tun_fields tunnels)).
  { intros f Hf. apply tag_field_in in Hf. split; [exact Hf|].
    assert (Ni : forall k, inner_field k -> mhas m2 k = false) by (intros k Hi; destruct (mhas m2 k) eqn:E; [|reflexivity]; apply mhas_keys in E; now elim (proj2 O2 k E)).
    split; [apply Ni; now apply inner_l1|]. split; [apply Ni; now apply inner_l2|]. intros Hc. assert (Q := G2 f (Mf f Hf)). unfold mhas in *.
    destruct (mget (eg_rew e) f) eqn:E; [now rewrite Q|]. destruct (tag_levels f Hf) as (b' & Lv). destruct (F4 f b' Hf Lv E) as (Z0 & _). lia. }
  unfold sbind at 1 in EM. rewrite E2 in EM.
  destruct (shift_all C (eg_ops e) tunnels HC (fun t H => H) all_fields_nodup r2 m2 R2 M2 (proj1 O2) Y2) as [(r3 & m3 & E3 & R3 & L3 & M3 & K3 & [V1 V2 V3])|((f & If & Hh & Hd) & r3 & R3 & L3 & E3)].
  2:{ unfold sbind at 1 in EM. rewrite E3 in EM. exists r3. split; auto. split; [eapply rle_trans; eauto|]. right. left. split; [|split; [exact Hex|exact EM]]. exists f, (Z.to_nat (C f)).
      destruct (proj1 (Y2 f If), tt) as [Hf _]. destruct (tag_levels f Hf) as (b' & Lv).
      assert (Hw : mget (eg_rew e) f = None). { assert (Q := G2 f (Mf f Hf)). unfold mhas in Q, Hh. destruct (mget (eg_rew e) f); [rewrite Q in Hh; discriminate|reflexivity]. }
      split; [exact Hf|]. split; [now apply K2|]. split; [lia|]. apply (proj1 (proj2 (F4 f b' Hf Lv Hw))). }
  assert (V0 : forall n, tag_place n = None -> mget m3 n = mget m2 n).
  { intros n Hn. apply V1. intros f k If. apply place_none; [exact Hn|]. now apply tag_field_in. }
  assert (Lr3 : rle r r3) by (eapply rle_trans; eauto).
  assert (Acc : forall T, maccepts (rmatch a) (tview T) -> (maccepts m3 (tview T) <-> maccepts (rmatch b) (tview (F T)))).
  { intros T HT. apply F1 in HT. rewrite (accepts_cbit _ _ (proj1 M3)), (accepts_cbit _ _ (proj1 Mb)). split.
    - intros H i x Hx. destruct (cbit (eg_rew e) i) as [y|] eqn:Er.
      { assert (Q := F2 i y Er). assert (A1 := proj1 (accepts_cbit _ _ (proj1 Ms)) HT i y Q). assert (A2 := proj1 (accepts_cbit _ _ (proj1 Ms)) Hq1 i y Q).
        assert (A3 := proj1 (accepts_cbit _ _ (proj1 Mb)) Hq2 i x Hx). congruence. }
      assert (Hm2 : cbit m2 i = Some x) by (rewrite B2, Er; exact Hx). destruct (slot_at i) as [s|] eqn:Hi; [|unfold cbit in Hx; rewrite Hi in Hx; discriminate].
      destruct (slot_wide i s Hi) as (W & Hj). destruct (tag_place (sl_name s)) as [[f k]|] eqn:Ep.
      + rewrite (tview_at _ i s Hi). rewrite (cbit_eq _ _ _ Hi) in Hx. rewrite (cbit_eq _ _ _ Hi) in Hm2. destruct (place_inv _ f k Ep) as (Hf & Hk & El). rewrite El in *.
        destruct (tag_levels f Hf) as (b' & Lv). assert (sl_bits s = b') as E by (eapply wide_fun; [exact W|now apply lv_wide]). rewrite E in *.
        assert (k = 0%nat) by (eapply (outer_lv (rmatch b)); eauto). subst k. rewrite (tview_lv _ f b' 0) by (auto; lia). cbn [lv] in *. set (j := i - sl_off s) in *.
        destruct (Tg f b' j x Hf Lv Hj Hm2) as (Hw & Hg). destruct (F4 f b' Hf Lv Hw) as (C0 & CT & _). assert (C2 : 0 <= C f <= 2).
        { apply V3; [now apply tag_field_in|]. unfold mhas. destruct (mget m2 f); [reflexivity|discriminate]. }
        rewrite CT, <- (tview_lv T f b' _ j Hf Lv) by lia. destruct (shape_cbit m3 (lv f (Z.to_nat (C f))) b' j ltac:(now apply lv_wide) Hj) as (i' & s' & Hi' & En' & Eb' & Fb'). rewrite Fb'. apply H. rewrite Eb'.
        rewrite (V2 f b') by (auto; try lia; now apply tag_field_in). rewrite Z2Nat.id, Z.eqb_refl by lia. exact Hm2.
      + rewrite (proj2 (F3 i s Hi Ep Er) T). apply H. rewrite (cbit_eq _ _ _ Hi), (V0 _ Ep), <- (cbit_eq _ _ _ Hi). exact Hm2.
    - intros H i x Hx. destruct (slot_at i) as [s|] eqn:Hi; [|unfold cbit in Hx; rewrite Hi in Hx; discriminate]. destruct (slot_wide i s Hi) as (W & Hj). destruct (tag_place (sl_name s)) as [[f k]|] eqn:Ep.
      + rewrite (tview_at _ i s Hi). rewrite (cbit_eq _ _ _ Hi) in Hx. destruct (place_inv _ f k Ep) as (Hf & Hk & El). rewrite El in *.
        destruct (tag_levels f Hf) as (b' & Lv). assert (sl_bits s = b') as E by (eapply wide_fun; [exact W|now apply lv_wide]). rewrite E in *. set (j := i - sl_off s) in *.
        rewrite (V2 f b') in Hx by (auto; now apply tag_field_in). destruct (Z.eqb_spec (Z.of_nat k) (C f)) as [Ec|Ec]; [|discriminate]. destruct (Tg f b' j x Hf Lv Hj Hx) as (Hw & Hg). rewrite Hg in Hx.
        destruct (F4 f b' Hf Lv Hw) as (C0 & CT & _). rewrite (tview_lv _ f b' k) by auto. replace k with (Z.to_nat (C f)) by lia. rewrite <- CT, <- (tview_lv (F T) f b' 0 j) by (auto; lia).
        destruct (shape_cbit (rmatch b) (lv f 0) b' j ltac:(now apply lv_wide) Hj) as (i' & s' & Hi' & En' & Eb' & Fb'). rewrite Fb'. apply H. now rewrite Eb'.
      + rewrite (cbit_eq _ _ _ Hi), (V0 _ Ep), <- (cbit_eq _ _ _ Hi), B2 in Hx. destruct (cbit (eg_rew e) i) eqn:Er; [discriminate|]. rewrite <- (proj2 (F3 i s Hi Ep Er) T). now apply H. }
  unfold sbind at 1 in EM. rewrite E3 in EM. destruct Hex as (T0 & P1 & P2).
  destruct (intersection_runs r3 (rmatch a) m3 R3 (match_ok_mono _ _ _ Lr3 Ma) M3 (ex_intro _ (tview T0) (conj P1 (proj2 (Acc T0 P1) P2)))) as (r4 & m & E4 & R4 & L4 & M4 & A4 & _).
  unfold sbind at 1 in EM. rewrite E4 in EM. exists r4. split; auto. split; [eapply rle_trans; eauto|]. right. right.
  exists m, T0. split; [split; auto|]. split; auto. split.
  - intros T. rewrite A4. split; intros [H1 H2]; (split; [exact H1|]); now apply Acc.
  - rewrite EM. unfold finish_merge, sbind, slift. destruct (inst_merge (inst a) (inst b)) as [i|err]; cbn [rbind]; [|reflexivity].
    destruct (openflow && existsb ends_in_digit (mkeys m)); reflexivity.
Qed.

(** ** The order of independent actions *)
Definition same_tall (S T : tall) : Prop := (forall i, flat S i = flat T i) /\ forall f k j, tags S f k j = tags T f k j.
Lemma same_tall_refl T : same_tall T T. Proof. split; reflexivity. Qed.
Lemma same_tall_sym S T : same_tall S T -> same_tall T S. Proof. intros [A B]. split; intros; symmetry; auto. Qed.
Lemma same_tall_trans R S T : same_tall R S -> same_tall S T -> same_tall R T. Proof. intros [A B] [A' B']. split; intros; [now rewrite A|now rewrite B]. Qed.
Lemma same_view S T : same_tall S T -> forall i, tview S i = tview T i.
Proof. intros [A B] i. unfold tview. destruct (slot_at i) as [s|]; [|auto]. destruct (tag_place (sl_name s)) as [[f k]|]; auto. Qed.
(** the field that a name belongs to *)
Definition base (n : string) : string := match tag_place n with Some (f, _) => f | None => n end.
Definition touched (a : action) : list string :=
  match push_of a with
  | Some t => tun_fields t
  | None => match pop_of a with
            | Some t => tun_fields t
            | None => match set_field_of a with Some f => [base f] | None => [] end
            end
  end.
Definition touches (a : action) (f : string) : bool := existsb (String.eqb f) (touched a).
Definition apart_types (t u : atype) : bool :=
  match depends (sample t) (sample u) with
  | Ok false => (atype_eqb t u && match pop_of (sample t) with Some _ => true | None => false end) || forallb (fun f => negb (touches (sample u) f)) (touched (sample t))
  | _ => true
  end.
Lemma apart_types_check : forallb (fun t => forallb (apart_types t) known_types) known_types = true.
Proof. vm_compute. reflexivity. Qed.
Lemma touched_sample a t : to_type a = Ok t -> touched a = touched (sample t).
Proof.
  unfold to_type, touched, push_of, pop_of, set_field_of. destruct a as [n v]. cbn [fst snd]. destruct (String.eqb_spec n "SET_FIELD") as [->|N].
  - destruct v; try discriminate. intros [= <-]. reflexivity.
  - intros [= <-]. cbn [sample fst snd]. rewrite (proj2 (String.eqb_neq _ _) N). reflexivity.
Qed.
(** independent actions: the same pop, or different fields *)
Lemma indep_apart a b : act_ind a b -> (fst a = fst b /\ pop_of a <> None) \/ forall f, touches a f = true -> touches b f = false.
Proof.
  intros Hd. assert (Hd' := Hd). unfold act_ind, depends in Hd.
  apply rbind_ok in Hd as (t & Ht & Hd). apply rbind_ok in Hd as (u & Hu & Hd). apply rbind_ok in Hd as (dt & Hdt & Hd). apply rbind_ok in Hd as (du & Hdu & _).
  assert (F := apart_types_check). rewrite forallb_forall in F. specialize (F _ (known_type_in t (ex_intro _ _ Hdt))). rewrite forallb_forall in F. specialize (F _ (known_type_in u (ex_intro _ _ Hdu))).
  unfold apart_types in F. unfold act_ind in Hd'. rewrite (depends_sample _ _ _ _ Ht Hu) in Hd'. rewrite Hd' in F. apply orb_true_iff in F as [F|F].
  - left. apply andb_true_iff in F as [F1 F2]. assert (Nt : forall x y, to_type x = Ok (TName y) -> fst x = y).
    { unfold to_type. intros x y. destruct (String.eqb_spec (fst x) "SET_FIELD"); [destruct (snd x); discriminate|congruence]. }
    destruct t as [n|g]; [|discriminate F2]. destruct u as [n'|g]; [|discriminate F1]. cbn [atype_eqb] in F1. apply String.eqb_eq in F1 as <-. rewrite (Nt a n Ht), (Nt b n Hu). split; [reflexivity|].
    unfold pop_of in *. rewrite (Nt a n Ht). cbn [sample fst] in F2. destruct (find_tun tun_pop n tunnels); [discriminate|discriminate F2].
  - right. intros f Ha. rewrite forallb_forall in F. unfold touches in *. rewrite (touched_sample _ _ Ht) in Ha. rewrite (touched_sample _ _ Hu). apply existsb_eqb in Ha. apply F in Ha. now apply negb_true_iff.
Qed.
Lemma push_fields_other fs : forall T f k j, existsb (String.eqb f) fs = false -> tags (fold_left tall_push_field fs T) f k j = tags T f k j.
Proof. induction fs as [|g fs IH]; intros T f k j H; cbn [fold_left existsb] in *; [reflexivity|]. apply orb_false_iff in H as [H1 H2]. rewrite IH by auto. cbn [tags tall_push_field]. now rewrite H1. Qed.
Lemma pop_fields_other fs : forall T f k j, existsb (String.eqb f) fs = false -> tags (fold_left tall_pop_field fs T) f k j = tags T f k j.
Proof. induction fs as [|g fs IH]; intros T f k j H; cbn [fold_left existsb] in *; [reflexivity|]. apply orb_false_iff in H as [H1 H2]. rewrite IH by auto. cbn [tags tall_pop_field]. now rewrite H1. Qed.
Lemma push_fields_cong fs : forall S T f, (forall k j, tags S f k j = tags T f k j) -> forall k j, tags (fold_left tall_push_field fs S) f k j = tags (fold_left tall_push_field fs T) f k j.
Proof.
  induction fs as [|g fs IH]; intros S T f H; cbn [fold_left]; [exact H|]. apply IH. intros k j. cbn [tags tall_push_field]. destruct (String.eqb_spec f g) as [->|N]; [|auto]. destruct k; now rewrite H.
Qed.
Lemma pop_fields_cong fs : forall S T f, (forall k j, tags S f k j = tags T f k j) -> forall k j, tags (fold_left tall_pop_field fs S) f k j = tags (fold_left tall_pop_field fs T) f k j.
Proof.
  induction fs as [|g fs IH]; intros S T f H; cbn [fold_left]; [exact H|]. apply IH. intros k j. cbn [tags tall_pop_field]. destruct (String.eqb_spec f g) as [->|N]; auto.
Qed.
Lemma push_fields_flat fs : forall T, flat (fold_left tall_push_field fs T) = flat T. Proof. induction fs as [|g fs IH]; intros T; cbn [fold_left]; [reflexivity|]. now rewrite IH. Qed.
Lemma pop_fields_flat fs : forall T, flat (fold_left tall_pop_field fs T) = flat T. Proof. induction fs as [|g fs IH]; intros T; cbn [fold_left]; [reflexivity|]. now rewrite IH. Qed.
(** an action that is neither a push nor a pop *)
Lemma act_set a : push_of a = None -> pop_of a = None -> (exists f v, set_field_of a = Some f /\ forall T, tall_act T a = tall_set f v T) \/ (set_field_of a = None /\ forall T, tall_act T a = T).
Proof.
  intros P Q. destruct a as [n v]. destruct (String.eqb_spec n "SET_FIELD") as [->|N].
  - destruct v as [|z|f v|t bs]; try (right; split; [reflexivity|]; intros T; rewrite tall_act_find, P, Q; reflexivity).
    left. exists f, (vid_value f v). split; [reflexivity|]. intros T. rewrite tall_act_find, P, Q. reflexivity.
  - right. split; [unfold set_field_of; cbn [fst]; now rewrite (proj2 (String.eqb_neq _ _) N)|]. intros T. now apply tall_act_other.
Qed.
Lemma act_tags_other a f : touches a f = false -> forall T k j, tags (tall_act T a) f k j = tags T f k j.
Proof.
  unfold touches, touched. intros H T k j. destruct (push_of a) as [t|] eqn:P; [rewrite tall_act_find, P; now apply push_fields_other|]. destruct (pop_of a) as [t|] eqn:Q; [rewrite tall_act_find, P, Q; now apply pop_fields_other|].
  destruct (act_set a P Q) as [(g & v & E & A)|(E & A)]; rewrite A; [|reflexivity]. rewrite E in H. cbn [existsb] in H. rewrite orb_false_r in H. cbn [tags tall_set]. unfold base in H. destruct (tag_place g) as [[b d]|]; [now rewrite H|reflexivity].
Qed.
Lemma act_tags_cong a f S T : (forall k j, tags S f k j = tags T f k j) -> forall k j, tags (tall_act S a) f k j = tags (tall_act T a) f k j.
Proof.
  intros H. destruct (push_of a) as [t|] eqn:P; [rewrite !tall_act_find, P; now apply push_fields_cong|]. destruct (pop_of a) as [t|] eqn:Q; [rewrite !tall_act_find, P, Q; now apply pop_fields_cong|].
  intros k j. destruct (act_set a P Q) as [(g & v & E & A)|(E & A)]; rewrite !A; [|auto]. cbn [tags tall_set]. destruct (tag_place g) as [[b d]|]; [|auto]. destruct (String.eqb f b && Nat.eqb k d); auto.
Qed.
(** the bit written into a flat field *)
Definition flat_rw (a : action) (i : Z) : option bool := match push_of a, pop_of a with
  | None, None => match a with ("SET_FIELD", VSet f v) => rset f (vid_value f v) None i | _ => None end | _, _ => None end.
Lemma act_flat a T i : flat (tall_act T a) i = apply_rw (flat_rw a) (flat T) i.
Proof.
  unfold apply_rw, flat_rw. destruct (push_of a) as [t|] eqn:P; [rewrite tall_act_find, P; now rewrite push_fields_flat|]. destruct (pop_of a) as [t|] eqn:Q; [rewrite tall_act_find, P, Q; now rewrite pop_fields_flat|].
  destruct a as [n v]. destruct (String.eqb_spec n "SET_FIELD") as [->|N].
  - rewrite tall_act_find, P, Q. destruct v as [|z|f v|t bs]; try reflexivity. cbn [flat tall_set]. now rewrite write_field_rw.
  - rewrite tall_act_other by auto. repeat match goal with |- context [match ?x with _ => _ end] => is_var x; destruct x; try reflexivity end. now destruct N.
Qed.
Lemma flat_rw_touches a i x : flat_rw a i = Some x -> exists s, slot_at i = Some s /\ touches a (base (sl_name s)) = true.
Proof.
  unfold flat_rw, touches, touched. destruct (push_of a) eqn:P; [discriminate|]. destruct (pop_of a) eqn:Q; [discriminate|].
  destruct a as [n v]. destruct (String.eqb_spec n "SET_FIELD") as [->|N].
  - destruct v as [|z|f v|t bs]; try discriminate. unfold rset. destruct (slot_at i) as [s|]; [|discriminate]. destruct (String.eqb_spec (sl_name s) f) as [<-|N]; [|discriminate]. intros _. exists s. split; [reflexivity|].
    change (set_field_of ("SET_FIELD", VSet (sl_name s) v)) with (Some (sl_name s)). cbn [existsb]. now rewrite String.eqb_refl.
  - intros H. exfalso. revert H. repeat match goal with |- context [match ?x with _ => _ end] => is_var x; destruct x; try discriminate end. now destruct N.
Qed.
Lemma act_cong a S T : same_tall S T -> same_tall (tall_act S a) (tall_act T a).
Proof. intros [A B]. split; [intros i; rewrite !act_flat; unfold apply_rw; destruct (flat_rw a i); auto|]. intros f. now apply act_tags_cong. Qed.
Lemma acts_cong l : forall S T, same_tall S T -> same_tall (fold_left tall_act l S) (fold_left tall_act l T).
Proof. induction l as [|a l IH]; intros S T H; cbn [fold_left]; [exact H|]. now apply IH, act_cong. Qed.
Lemma act_swap a b T : act_ind a b -> same_tall (tall_act (tall_act T a) b) (tall_act (tall_act T b) a).
Proof.
  intros H0. apply indep_apart in H0 as [[E1 E2]|H].
  { assert (Q : forall S, tall_act S a = tall_act S b).
    { intros S. rewrite !tall_act_find. unfold push_of, pop_of in *. rewrite <- E1. destruct (find_tun tun_push (fst a) tunnels); [reflexivity|]. destruct (find_tun tun_pop (fst a) tunnels); [reflexivity|]. now destruct E2. }
    rewrite !Q. apply same_tall_refl. }
  split.
  - intros i. rewrite !act_flat. unfold apply_rw. rewrite !act_flat. unfold apply_rw. destruct (flat_rw b i) as [y|] eqn:Eb, (flat_rw a i) as [x|] eqn:Ea; try reflexivity.
    exfalso. apply flat_rw_touches in Ea as (s & Es & Ea), Eb as (s' & Es' & Eb). assert (s' = s) by congruence. subst s'. rewrite (H _ Ea) in Eb. discriminate.
  - intros f k j. destruct (touches a f) eqn:Ea.
    + assert (Eb := H f Ea). rewrite act_tags_other by auto. symmetry. apply act_tags_cong. intros k' j'. now apply act_tags_other.
    + rewrite (act_tags_other a f Ea (tall_act T b)). apply act_tags_cong. intros k' j'. now apply act_tags_other.
Qed.
Lemma teq_tall l r : teq l r -> forall T, same_tall (fold_left tall_act l T) (fold_left tall_act r T).
Proof.
  induction 1 as [l|l a b r H|l m r H1 IH1 H2 IH2]; intros T.
  - apply same_tall_refl.
  - rewrite !fold_left_app. cbn [fold_left]. apply acts_cong. now apply act_swap.
  - eapply same_tall_trans; eauto.
Qed.
(** write-metadata commutes with the actions *)
Definition tmeta (wm : option (Z * option Z)) (T : tall) : tall := Tall (metadata_header wm (flat T)) (tags T).
Lemma tmeta_cong wm S T : same_tall S T -> same_tall (tmeta wm S) (tmeta wm T).
Proof. intros [A B]. split; [|exact B]. intros i. cbn [flat tmeta]. rewrite !meta_rw. unfold apply_rw. destruct (rmeta wm i); auto. Qed.
Lemma flat_rw_meta a i x y wm : no_meta a -> flat_rw a i = Some x -> rmeta wm i = Some y -> False.
Proof.
  intros Hn Ha Hm. unfold rmeta in Hm. destruct wm as [[v mk]|]; [|discriminate]. unfold rset in Hm. destruct (slot_at i) as [s|] eqn:Es; [|discriminate]. destruct (String.eqb_spec (sl_name s) "METADATA") as [E|E]; [|discriminate].
  unfold flat_rw in Ha. destruct (push_of a); [discriminate|]. destruct (pop_of a); [discriminate|]. destruct a as [n w]. destruct (String.eqb_spec n "SET_FIELD") as [->|N].
  - destruct w as [|z|f w|t bs]; try discriminate. unfold rset in Ha. rewrite Es in Ha. destruct (String.eqb_spec (sl_name s) f) as [E'|E']; [|discriminate]. apply (Hn w). congruence.
  - revert Ha. repeat match goal with |- context [match ?x with _ => _ end] => is_var x; destruct x; try discriminate end. now destruct N.
Qed.
Lemma tmeta_act wm a T : no_meta a -> same_tall (tall_act (tmeta wm T) a) (tmeta wm (tall_act T a)).
Proof.
  intros Hn. split.
  - intros i. rewrite act_flat. cbn [flat tmeta]. unfold apply_rw. rewrite !meta_rw. unfold apply_rw. rewrite act_flat. unfold apply_rw. destruct (flat_rw a i) as [x|] eqn:Ea, (rmeta wm i) as [y|] eqn:Em; try reflexivity. exfalso. eapply flat_rw_meta; eauto.
  - intros f k j. cbn [tags tmeta]. now apply act_tags_cong.
Qed.
Lemma tmeta_acts wm l : Forall no_meta l -> forall T, same_tall (fold_left tall_act l (tmeta wm T)) (tmeta wm (fold_left tall_act l T)).
Proof.
  induction 1 as [|a l Ha Hl IH]; intros T; cbn [fold_left]; [apply same_tall_refl|]. eapply same_tall_trans; [apply acts_cong; now apply tmeta_act|]. apply IH.
Qed.
Lemma inst_perm l l' wm T : teq l l' -> same_tall (tall_inst l wm T) (tall_inst l' wm T).
Proof. intros H. apply (tmeta_cong wm). now apply teq_tall. Qed.
Lemma inst_cong l wm S T : same_tall S T -> same_tall (tall_inst l wm S) (tall_inst l wm T).
Proof. intros H. apply (tmeta_cong wm). now apply acts_cong. Qed.
(** two rules one after the other *)
Lemma inst_seq la lb lc wa wb T : teq (la ++ lb) lc -> Forall no_meta lb -> same_tall (tall_inst lc (merge_metadata wa wb) T) (tall_inst lb wb (tall_inst la wa T)).
Proof.
  intros H Hb. change (same_tall (tmeta (merge_metadata wa wb) (fold_left tall_act lc T)) (tmeta wb (fold_left tall_act lb (tmeta wa (fold_left tall_act la T))))).
  eapply same_tall_trans; [|apply tmeta_cong; apply same_tall_sym; now apply tmeta_acts]. eapply same_tall_trans; [apply tmeta_cong; apply same_tall_sym; apply (teq_tall _ _ H)|]. rewrite fold_left_app.
  split; [|reflexivity]. intros i. cbn [flat tmeta]. rewrite !meta_rw. unfold apply_rw. rewrite SingleTableProofs.rmeta_merge, meta_rw. unfold apply_rw. destruct (rmeta wb i), (rmeta wa i); reflexivity.
Qed.
