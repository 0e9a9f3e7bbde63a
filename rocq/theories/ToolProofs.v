(** Proofs about the command check_equivalence. *)
From Coq Require Import Permutation Sorted Lia ZifyBool ZifyNat.
From Verif Require Import Tool SpecTool MatchProofs NormaliseProofs MergeProofs EagerProofs SingleTableProofs PriorityProofs PathProofs PropNormalise.
Local Open Scope string_scope.
Local Open Scope list_scope.
Local Open Scope Z_scope.

(** ** Sorting does not change the pipeline *)
Definition of_prio (t pr : Z) (r : rule) : bool := (table (rcore r) =? t) && (priority (rcore r) =? pr).
Definition hit2 (rules : list rule) (t : Z) (p : packet) (r : rule) : Prop :=
  table (rcore r) = t /\ rule_accepts r p /\
  (forall x, In x rules -> table (rcore x) = t -> rule_accepts x p -> priority (rcore x) <= priority (rcore r)) /\
  exists l1 l2, filter (of_prio t (priority (rcore r))) rules = l1 ++ r :: l2 /\ forall x, In x l1 -> ~ rule_accepts x p.
Lemma filter_split {A} (f : A -> bool) l : forall l1 r l2, filter f l = l1 ++ r :: l2 -> exists m1 m2, l = m1 ++ r :: m2 /\ filter f m1 = l1 /\ filter f m2 = l2.
Proof.
  induction l as [|x l IH]; intros l1 r l2 H; cbn [filter] in H; [destruct l1; discriminate H|]. destruct (f x) eqn:E.
  - destruct l1 as [|y l1]; injection H as -> H; [exists [], l; auto|]. destruct (IH _ _ _ H) as (m1 & m2 & -> & <- & <-).
    exists (y :: m1), m2. cbn [filter]. rewrite E. auto.
  - destruct (IH _ _ _ H) as (m1 & m2 & -> & <- & <-). exists (x :: m1), m2. cbn [filter]. rewrite E. auto.
Qed.
Lemma hit_hit2 rules t p r : table_hit rules t p r <-> hit2 rules t p r.
Proof.
  split.
  - intros (l1 & l2 & -> & T & A & B1 & B2). split; [auto|]. split; [auto|]. split.
    + intros x Hx Tx Ax. apply in_app_or in Hx as [Hx|[<-|Hx]]; [specialize (B1 x Hx Tx Ax)|..|specialize (B2 x Hx Tx Ax)]; lia.
    + exists (filter (of_prio t (priority (rcore r))) l1), (filter (of_prio t (priority (rcore r))) l2). split.
      * rewrite filter_app. cbn [filter]. unfold of_prio at 2. rewrite T, !Z.eqb_refl. reflexivity.
      * intros x Hx Ax. apply filter_In in Hx as [Hx F]. unfold of_prio in F. specialize (B1 x Hx ltac:(lia) Ax). lia.
  - intros (T & A & B & l1 & l2 & F & N). apply filter_split in F as (m1 & m2 & -> & <- & _). exists m1, m2. split; [auto|]. split; [auto|]. split; [auto|].
    split; intros x Hx Tx Ax.
    + assert (L := B x ltac:(apply in_or_app; now left) Tx Ax). destruct (Z.eq_dec (priority (rcore x)) (priority (rcore r))) as [E|E]; [|lia].
      exfalso. apply (N x); [|exact Ax]. apply filter_In. split; [exact Hx|]. unfold of_prio. lia.
    + apply B; auto. apply in_or_app. right. now right.
Qed.
Lemma in_sort r l : In r (sort_ruleset l) <-> In r l.
Proof. split; apply Permutation_in; [|symmetry]; apply sort_perm. Qed.
Lemma sort_hit rules t p r : table_hit (sort_ruleset rules) t p r <-> table_hit rules t p r.
Proof.
  rewrite !hit_hit2. unfold hit2. assert (S := sort_stable rules t (priority (rcore r))). unfold of_prio. rewrite S.
  split; intros (T & A & B & C); (split; [exact T|]; split; [exact A|]; split; [|exact C]); intros x Hx; apply B; now apply in_sort.
Qed.
Lemma sort_miss rules t p : table_miss (sort_ruleset rules) t p <-> table_miss rules t p.
Proof. split; intros H x Hx; apply H; now apply in_sort. Qed.
Lemma sort_pipeline rules t p d ws miss app wr : pipeline (sort_ruleset rules) t p d ws miss app wr <-> pipeline rules t p d ws miss app wr.
Proof.
  split; intros H; induction H as [t p d ws r t' miss app wr H G P IH|t p d ws r H G|t p d ws H].
  - rewrite sort_hit in H. eapply pl_goto; [exact H|exact G|exact IH].
  - rewrite sort_hit in H. now apply pl_stop.
  - rewrite sort_miss in H. now apply pl_miss.
  - eapply pl_goto; [rewrite sort_hit; exact H|exact G|exact IH].
  - apply pl_stop; [now rewrite sort_hit|exact G].
  - apply pl_miss. now rewrite sort_miss.
Qed.
Lemma sort_executes drop rules p out : executes drop (sort_ruleset rules) p out <-> executes drop rules p out.
Proof. split; intros (miss & app & wr & o & P & R); exists miss, app, wr, o; (split; [now apply sort_pipeline|exact R]). Qed.
Lemma sort_visits rules t p l : visits (sort_ruleset rules) t p l <-> visits rules t p l.
Proof.
  split; intros H; induction H as [t p r t' l H G P IH|t p r H G|t p H].
  - rewrite sort_hit in H. eapply vs_goto; [exact H|exact G|exact IH].
  - rewrite sort_hit in H. now apply vs_stop.
  - rewrite sort_miss in H. now apply vs_miss.
  - eapply vs_goto; [rewrite sort_hit; exact H|exact G|exact IH].
  - apply vs_stop; [now rewrite sort_hit|auto].
  - apply vs_miss. now rewrite sort_miss.
Qed.
Lemma sort_good reg o l : Forall (good_rule reg o) l -> Forall (good_rule reg o) (sort_ruleset l).
Proof. rewrite !Forall_forall. intros H x Hx. apply H. now apply in_sort. Qed.
Lemma sort_total l : total_tables l -> total_tables (sort_ruleset l).
Proof.
  intros H r Hr Z p. destruct (H r (proj1 (in_sort _ _) Hr) Z p) as (x & Hx & R). exists x. split; [now apply in_sort|exact R].
Qed.
Lemma fop_perm {A} (R : A -> A -> Prop) l l' : (forall a b, R a b -> R b a) -> Permutation l l' -> ForallOrdPairs R l -> ForallOrdPairs R l'.
Proof.
  intros S P. induction P as [|x l l' P IH|x y l|l l' l'' P1 IH1 P2 IH2]; intros H; [constructor| | |auto].
  - inversion H as [|? ? F G]; subst. constructor; [|auto]. eapply Permutation_Forall; eauto.
  - inversion H as [|? ? F G]; subst. inversion F as [|? ? F1 F2]; subst. inversion G as [|? ? G1 G2]; subst.
    constructor; [constructor; auto|]. constructor; auto.
Qed.
Lemma sort_no_tie l : ForallOrdPairs (no_tie overlap) l -> ForallOrdPairs (no_tie overlap) (sort_ruleset l).
Proof.
  apply fop_perm; [|symmetry; apply sort_perm]. intros a b H E1 E2 (p & A & B). apply H; auto. exists p. auto.
Qed.

(** ** What a canonical form says *)
Section Canon.
  Context (SHIFT : Z) (shift_pos : 0 < SHIFT) (shift_even : SHIFT mod 2 = 0).
  Lemma norm_sem (dc : bool) reg acts S acts' b : rules_ok reg S -> NoDup acts ->
    (if dc then normalise_dc SHIFT None acts S else normalise_naive SHIFT None acts S) = Ok (acts', b) ->
    (exists ext, acts' = acts ++ ext) /\ NoDup acts' /\ (forall r, In r S -> is_ok (rule_actions r) = true) /\
    exists f, sem acts' b f /\ forall p, prescribes S p (f p).
  Proof using shift_pos shift_even.
    intros H N E. assert (E' : normalise_naive SHIFT None acts S = Ok (acts', b)).
    { destruct dc; [|exact E]. rewrite <- E. symmetry. apply (dc_agrees_any SHIFT None reg); auto. intros ->. discriminate E. }
    clear E. assert (A : forall r, In r S -> is_ok (rule_actions r) = true).
    { intros r Hr. destruct (rule_actions r) as [d|e] eqn:E; [reflexivity|]. assert (X := naive_err_actions SHIFT S acts r e Hr E). rewrite E' in X. discriminate X. }
    destruct (plain_entries S reg H A) as (es & Ees & W & _ & Q). destruct (naive_sem SHIFT shift_pos shift_even None _ _ _ _ _ Ees W N E') as (X1 & X2 & X3).
    split; [auto|]. split; [auto|]. split; [auto|]. exists (first_entry es). auto.
  Qed.
End Canon.
Lemma sem_same acts a b f g p : NoDup acts -> sem acts a f -> sem acts b g -> (adenote a p = adenote b p <-> f p = g p).
Proof.
  intros N [_ Ha] [_ Hb]. specialize (Ha p). specialize (Hb p). split; intros E.
  - rewrite E, Hb in Ha. destruct (f p), (g p); cbn in Ha; congruence.
  - rewrite E in Ha. eapply tta_inj; eauto.
Qed.
Lemma sem_equal acts a b f g S T : NoDup acts -> sem acts a f -> sem acts b g -> (forall p, prescribes S p (f p)) -> (forall p, prescribes T p (g p)) ->
  (a = b <-> forall p o, prescribes S p o <-> prescribes T p o).
Proof.
  intros N Ha Hb Qa Qb. split.
  - intros E p o. assert (X : f p = g p) by (apply (sem_same acts a b f g p); [auto..|now rewrite E]). split; intros P.
    + rewrite (prescribes_unique _ _ _ _ P (Qa p)), X. apply Qb.
    + rewrite (prescribes_unique _ _ _ _ P (Qb p)), <- X. apply Qa.
  - intros H. apply (adenote_inj 0); [apply Ha|apply Hb|]. intros p. apply (sem_same acts a b f g p); auto.
    apply (prescribes_unique T p); [apply H, Qa|apply Qb].
Qed.

(** ** The loop over the rulesets *)
Lemma dict_get_set {V} (d : dict V) k v k' : dict_get (dict_set d k v) k' = if String.eqb k k' then Some v else dict_get d k'.
Proof.
  unfold dict_get. induction d as [|[k0 v0] t IH]; cbn [dict_set assoc]; [reflexivity|].
  destruct (String.eqb_spec k0 k) as [->|n0]; cbn [assoc].
  - destruct (String.eqb k k'); reflexivity.
  - rewrite IH. destruct (String.eqb_spec k0 k') as [E|n]; [|reflexivity]. destruct (String.eqb_spec k k') as [E'|]; [congruence|reflexivity].
Qed.

(** what is known of a ruleset [na] with canonical form [nb] *)
Record traced (reg0 reg : registry) (acts : list tkey) (singles : dict (list rule)) (na : string * list rule) (nb : string * add) : Prop := mkKnown {
  k_name : fst na = fst nb;
  k_body : exists r r' S f, rle reg0 r /\ reg_ok r /\ to_single_table (sort_ruleset (snd na)) true r = (r', Ok S) /\
    dict_get singles (fst na) = Some S /\ rle r' reg /\ rules_ok r' S /\ Forall (fun c => table (rcore c) = 0) S /\
    (forall c, In c S -> is_ok (rule_actions c) = true) /\ sem acts (snd nb) f /\ forall p, prescribes S p (f p) }.
Lemma known_mono reg0 reg reg' acts ext singles n S na nb : rle reg reg' -> n <> fst na ->
  traced reg0 reg acts singles na nb -> traced reg0 reg' (acts ++ ext) (dict_set singles n S) na nb.
Proof.
  intros L Hn [K (r & r' & S' & f & H1 & H2 & H3 & H4 & H5 & H6 & H7 & H8 & H9 & H10)]. split; [exact K|]. exists r, r', S', f.
  split; [auto|]. split; [auto|]. split; [auto|]. split.
  { rewrite dict_get_set. destruct (String.eqb_spec n (fst na)); [contradiction|auto]. }
  split; [eapply rle_trans; eauto|]. split; [auto|]. split; [auto|]. split; [auto|]. split; [now apply sem_ext|auto].
Qed.
Section Loop.
  Context (SHIFT : Z) (shift_pos : 0 < SHIFT) (shift_even : SHIFT mod 2 = 0) (dc : bool).
  Lemma process_run reg0 rulesets : forall done w reg w' reg', sfold (process SHIFT dc) rulesets w reg = (reg', Ok w') ->
    NoDup (map fst (done ++ rulesets)) -> (forall na, In na rulesets -> Forall (good_rule reg0 true) (snd na)) ->
    reg_ok reg -> rle reg0 reg -> NoDup (w_acts w) -> hd_error (w_acts w) = Some DIFFERENT ->
    Forall2 (traced reg0 reg (w_acts w) (w_single w)) done (w_canon w) ->
    reg_ok reg' /\ rle reg0 reg' /\ NoDup (w_acts w') /\ hd_error (w_acts w') = Some DIFFERENT /\
    Forall2 (traced reg0 reg' (w_acts w') (w_single w')) (done ++ rulesets) (w_canon w').
  Proof using shift_pos shift_even.
    induction rulesets as [|[n A] rulesets IH]; intros done w reg w' reg' E ND HG HR HL HN HD HF; cbn [sfold] in E.
    - unfold sret in E. injection E as <- <-. rewrite app_nil_r. auto.
    - unfold sbind at 1 in E. destruct (process SHIFT dc w (n, A) reg) as [reg1 [w1|e]] eqn:E1; [|discriminate E].
      unfold process in E1. cbn [fst snd] in E1. unfold sbind at 1 in E1.
      destruct (to_single_table (sort_ruleset A) true reg) as [r1 [S|e]] eqn:ES; [|discriminate E1].
      unfold sbind, slift in E1. destruct (if dc then _ else _) as [[acts1 b]|e] eqn:EN; [|discriminate E1]. unfold sret in E1. injection E1 as <- <-. cbn [fst snd] in *.
      assert (GA : Forall (good_rule reg true) (sort_ruleset A)).
      { apply sort_good. apply (good_rules_mono reg0); [exact HL|]. apply (HG (n, A)). now left. }
      destruct (single_tables _ _ _ _ _ HR GA ES) as (R1 & G1 & T1). assert (L1 := single_rle _ _ _ _ _ HR GA ES).
      assert (OK : rules_ok r1 S) by (intros c Hc; unfold goods in G1; rewrite Forall_forall in G1; apply (G1 c Hc)).
      destruct (norm_sem SHIFT shift_pos shift_even dc r1 _ _ _ _ OK HN EN) as ([ext ->] & N1 & AO & f & Sf & Pf).
      replace (done ++ (n, A) :: rulesets) with ((done ++ [(n, A)]) ++ rulesets) in * by now rewrite <- app_assoc.
      apply (IH _ _ _ _ _ E); cbn [w_acts w_single w_canon]; auto.
      + intros na Hna. apply HG. now right.
      + eapply rle_trans; eauto.
      + destruct (w_acts w); [discriminate HD|exact HD].
      + apply Forall2_app.
        * assert (NI : ~ In n (map fst done)).
          { rewrite !map_app in ND. cbn [map fst] in ND. rewrite <- app_assoc in ND. apply NoDup_remove_2 in ND. intros X. apply ND, in_or_app. now left. }
          clear - HF L1 NI. induction HF as [|na nb l l' K F IHF]; constructor.
          -- eapply known_mono; [exact L1| |exact K]. intros ->. apply NI. now left.
          -- apply IHF. intros X. apply NI. now right.
        * constructor; [|constructor]. split; [reflexivity|]. exists reg, r1, S, f. cbn [fst snd].
          rewrite dict_get_set, String.eqb_refl. split; [auto|]. split; [auto|]. split; [auto|]. split; [auto|]. split; [apply rle_refl|]. auto 7.
  Qed.
End Loop.
Lemma forall2_find {A B} (R : A -> B -> Prop) l l' x : Forall2 R l l' -> In x l -> exists y, In y l' /\ R x y.
Proof. induction 1 as [|a b l l' H F IH]; intros []; [subst; exists b; split; [now left|auto]|]. destruct IH as (y & Y & Q); [auto|]. exists y. split; [now right|auto]. Qed.
Lemma forall2_find_r {A B} (R : A -> B -> Prop) l l' y : Forall2 R l l' -> In y l' -> exists x, In x l /\ R x y.
Proof. induction 1 as [|a b l l' H F IH]; intros []; [subst; exists a; split; [now left|auto]|]. destruct IH as (x & X & Q); [auto|]. exists x. split; [now right|auto]. Qed.
Lemma known_names reg0 reg acts singles l l' : Forall2 (traced reg0 reg acts singles) l l' -> map fst l = map fst l'.
Proof. induction 1 as [|a b l l' H F IH]; [reflexivity|]. cbn [map]. f_equal; [apply H|exact IH]. Qed.

(** ** Loading *)
Lemma load_nodup load js : forall d r d' r', sfold (load_into load) js d r = (r', Ok d') -> NoDup (map fst d) ->
  NoDup (map fst d') /\ (forall n, In n (map fst d') <-> In n (map fst d) \/ In n (map fst js)) /\
  (forall n, ~ In n (map fst js) -> dict_get d' n = dict_get d n).
Proof.
  induction js as [|[f fmt] js IH]; intros d r d' r' E N; cbn [sfold] in E.
  - injection E as _ <-. split; [auto|]. split; [intros n; cbn; tauto|auto].
  - unfold sbind at 1 in E. unfold load_into at 1 in E. unfold sbind at 1 in E. cbn [fst snd] in E. destruct (load f fmt r) as [r1 [rs|e]]; [|discriminate E].
    unfold sret in E. destruct (IH _ _ _ _ E (dict_set_nodup _ _ _ N)) as (H1 & H2 & H3). split; [exact H1|]. split.
    + intros n. rewrite H2. cbn [map fst In]. rewrite dict_set_keys. destruct (existsb _ _) eqn:X.
      * split; [tauto|]. intros [H|[<-|H]]; auto. left. apply existsb_exists in X as (y & Hy & Q). apply String.eqb_eq in Q. now subst.
      * rewrite in_app_iff. cbn [In]. tauto.
    + intros n Hn. cbn [map fst In] in Hn. rewrite H3 by tauto. rewrite dict_get_set. destruct (String.eqb_spec f n); [tauto|reflexivity].
Qed.
Lemma load_last load j1 f fmt j2 : forall d r d' r', sfold (load_into load) (j1 ++ (f, fmt) :: j2) d r = (r', Ok d') -> NoDup (map fst d) -> ~ In f (map fst j2) ->
  exists r1 r2 rs, load f fmt r1 = (r2, Ok rs) /\ dict_get d' f = Some rs.
Proof.
  induction j1 as [|[g gf] j1 IH]; intros d r d' r' E N H; cbn [app sfold] in E; unfold sbind at 1 in E; unfold load_into at 1 in E; unfold sbind at 1 in E; cbn [fst snd] in E.
  - destruct (load f fmt r) as [r1 [rs|e]] eqn:L; [|discriminate E]. unfold sret in E.
    destruct (load_nodup _ _ _ _ _ _ E (dict_set_nodup _ _ _ N)) as (_ & _ & H3). exists r, r1, rs. split; [auto|]. rewrite (H3 f H), dict_get_set, String.eqb_refl. reflexivity.
  - destruct (load g gf r) as [r1 [rs|e]] eqn:L; [|discriminate E]. unfold sret in E. apply (IH _ _ _ _ E (dict_set_nodup _ _ _ N) H).
Qed.

(** ** Groups *)
Lemma group_facts (l : list (string * add)) gs : group_equal l = Ok gs ->
  Permutation l (List.concat gs) /\ (forall g, In g gs -> g <> []) /\ (forall g x, In g gs -> In x g -> In x l).
Proof.
  intros E. destruct (C23_grouping_is_exact string l) as (gs' & E' & P & N & _). rewrite E in E'. injection E' as <-.
  split; [exact P|]. split; [exact N|]. intros g x Hg Hx. apply (Permutation_in _ (Permutation_sym P)). apply in_concat. exists g. auto.
Qed.
Lemma concat_map_map {A B} (f : A -> B) (l : list (list A)) : List.concat (map (map f) l) = map f (List.concat l).
Proof. induction l as [|x l IH]; [reflexivity|]. cbn [map List.concat]. now rewrite IH, map_app. Qed.
Lemma in_fst_unique {V} (l : list (string * V)) x y : NoDup (map fst l) -> In x l -> In y l -> fst x = fst y -> x = y.
Proof.
  induction l as [|z l IH]; intros N Hx Hy E; [destruct Hx|]. cbn [map] in N. inversion N as [|? ? N1 N2]; subst. destruct Hx as [->|Hx], Hy as [->|Hy]; auto.
  - destruct N1. rewrite E. now apply in_map.
  - destruct N1. rewrite <- E. now apply in_map.
Qed.
Lemma same_line_iff (l : list (string * add)) gs x y : NoDup (map fst l) -> group_equal l = Ok gs -> In x l -> In y l ->
  (same_line (map (map fst) gs) (fst x) (fst y) <-> snd x = snd y).
Proof.
  intros N E Hx Hy. rewrite <- (C23_same_line_iff_equal string l gs x y E Hx Hy). destruct (group_facts l gs E) as (_ & _ & I). split.
  - intros (ln & L & A & B). apply in_map_iff in L as (g & <- & G). apply in_map_iff in A as (x' & Ex & X'). apply in_map_iff in B as (y' & Ey & Y').
    exists g. rewrite (in_fst_unique l x x'), (in_fst_unique l y y'); eauto.
  - intros (g & G & X & Y). exists (map fst g). split; [now apply in_map|]. split; now apply in_map.
Qed.

(** ** The report *)
Lemma first_total acts b f S : sem acts b f -> (forall p, prescribes S p (f p)) -> (forall p, exists c, first_match S p (Some c)) -> forall p, adenote b p <> 0.
Proof.
  intros [_ Hs] HP HT p E. specialize (Hs p). rewrite E in Hs. unfold term_to_action in Hs. cbn in Hs. destruct (f p) as [d|] eqn:Ef; [discriminate Hs|].
  destruct (HT p) as (c & Fc). specialize (HP p). rewrite Ef in HP. destruct HP as [[F _]|(r & d & _ & _ & X)]; [|discriminate X].
  assert (X := first_match_unique _ _ _ _ F Fc). discriminate X.
Qed.
Lemma unlike_denote acts a b f g S T p : NoDup acts -> sem acts a f -> sem acts b g -> (forall p, prescribes S p (f p)) -> (forall p, prescribes T p (g p)) ->
  (unlike S T p <-> adenote a p <> adenote b p).
Proof.
  intros N Ha Hb Qa Qb. rewrite (sem_same acts a b f g p N Ha Hb). split.
  - intros H E. apply H. intros o. split; intros P.
    + rewrite (prescribes_unique _ _ _ _ P (Qa p)), E. apply Qb.
    + rewrite (prescribes_unique _ _ _ _ P (Qb p)), <- E. apply Qa.
  - intros H E. apply H. apply (prescribes_unique T p); [apply E, Qa|apply Qb].
Qed.
Lemma first_sort_total reg S p : rules_ok reg S -> (exists c, first_match S p (Some c)) -> exists c, first_match (sort_ruleset S) p (Some c).
Proof.
  intros H (c & F). assert (H' : rules_ok reg (sort_ruleset S)) by (intros x Hx; apply H; now apply in_sort).
  destruct (first_match_total reg _ p H') as ([d|] & Fd); [eauto|]. exfalso. apply NormaliseProofs.first_match_in in F as [I A].
  rewrite fm_none_iff in Fd. apply (Fd c); [now apply in_sort|exact A].
Qed.
Section Report.
  Context (SHIFT : Z) (shift_pos : 0 < SHIFT) (shift_even : SHIFT mod 2 = 0).
  Context (reg0 reg : registry) (acts : list tkey) (singles : dict (list rule)) (acts_nodup : NoDup acts) (acts_hd : hd_error acts = Some DIFFERENT).
  (** what the report for two rulesets says *)
  Definition reports (na na' : string * list rule) (res : report) : Prop :=
    exists S S', dict_get singles (fst na) = Some S /\ dict_get singles (fst na') = Some S' /\
    ForallOrdPairs (fun x y => Normalise.path_eqb (fst x) (fst y) = false) res /\
    forall P Q, related res P Q <-> exists p c c', unlike S S' p /\ first_match (sort_ruleset S) p (Some c) /\ first_match (sort_ruleset S') p (Some c') /\ P = path c /\ Q = path c'.
  Definition fit (na : string * list rule) : Prop := Forall (good_rule reg0 true) (snd na) /\ total_tables (snd na) /\ (forall r, In r (snd na) -> path r = []).
  Lemma pair_ok na nb na' nb' : traced reg0 reg acts singles na nb -> traced reg0 reg acts singles na' nb' -> fit na -> fit na' ->
    exists S S' res, dict_get singles (fst nb) = Some S /\ dict_get singles (fst nb') = Some S' /\
      find_conflicting_paths SHIFT acts (addApply addDifference (snd nb) (snd nb')) S S' false = Ok (acts, res) /\ reports na na' res.
  Proof using shift_pos shift_even acts_nodup acts_hd.
    intros [K1 (r & r' & S & f & L1 & R1 & E1 & D1 & M1 & O1 & T1 & A1 & F1 & P1)] [K2 (q & q' & S' & g & L2 & R2 & E2 & D2 & M2 & O2 & T2 & A2 & F2 & P2)] (G1 & V1 & Z1) (G2 & V2 & Z2).
    exists S, S'. rewrite <- K1, <- K2. rewrite C24_sorts_first.
    destruct (C24_difference_is_a_set_partial (snd nb) (snd nb') (proj1 F1) (proj1 F2)) as (W & B & D).
    assert (G1' : Forall (good_rule r true) (sort_ruleset (snd na))) by (apply sort_good, (good_rules_mono reg0); auto).
    assert (G2' : Forall (good_rule q true) (sort_ruleset (snd na'))) by (apply sort_good, (good_rules_mono reg0); auto).
    assert (C1 : forall p, exists c, first_match S p (Some c)).
    { intros p. destruct (single_table_ok _ _ _ _ _ R1 G1' (sort_total _ V1) E1 p) as (c & Fc & _). eauto. }
    assert (C2 : forall p, exists c, first_match S' p (Some c)).
    { intros p. destruct (single_table_ok _ _ _ _ _ R2 G2' (sort_total _ V2) E2 p) as (c & Fc & _). eauto. }
    destruct (single_paths_tell _ _ _ _ _ R1 G1' (fun c Hc => Z1 c (proj1 (in_sort _ _) Hc)) E1) as [Pa Pb].
    rewrite Forall_forall in T1, T2.
    destruct (C24_conflicting_paths_partial SHIFT reg acts (addApply addDifference (snd nb) (snd nb')) (sort_ruleset S) (sort_ruleset S') shift_pos shift_even acts_hd) as (res & E & U & X); auto.
    - intros c Hc. eapply match_ok_mono; [exact M1|]. apply O1. now apply in_sort.
    - intros c Hc. eapply match_ok_mono; [exact M2|]. apply O2. now apply in_sort.
    - intros c Hc. apply T1. now apply in_sort.
    - intros c Hc. apply T2. now apply in_sort.
    - intros c Hc. apply Pa. now apply in_sort.
    - intros c d Hc Hd. apply Pb; now apply in_sort.
    - exists res. split; [auto|]. split; [auto|]. split; [exact E|]. exists S, S'. split; [auto|]. split; [auto|]. split; [exact U|]. intros P Q. unfold related. rewrite X.
      assert (TT := first_total acts _ f S F1 P1 C1). specialize (D TT).
      split.
      + intros (p & x & x' & N & Fx & Fx' & -> & ->). rewrite D, <- (unlike_denote acts _ _ f g S S' p) in N by auto.
        destruct (first_sort_total r' S p O1 (C1 p)) as (c & Fc). destruct (first_sort_total q' S' p O2 (C2 p)) as (c' & Fc').
        assert (Y := first_match_unique _ _ _ _ Fx Fc). assert (Y' := first_match_unique _ _ _ _ Fx' Fc'). subst. exists p, c, c'. auto.
      + intros (p & c & c' & N & Fx & Fx' & -> & ->). exists p, (Some c), (Some c'). rewrite D, <- (unlike_denote acts _ _ f g S S' p) by auto. auto.
  Qed.
  Lemma differences_eq n1 b1 g n2 b2 g2 gs : differences SHIFT acts singles (((n1, b1) :: g) :: ((n2, b2) :: g2) :: gs) =
    do s1 <- single_of singles n1; do s2 <- single_of singles n2;
    do sbs <- find_conflicting_paths SHIFT acts (addApply addDifference b1 b2) s1 s2 false;
    do ds <- differences SHIFT (fst sbs) singles (((n2, b2) :: g2) :: gs); Ok ((n1, n2, snd sbs) :: ds).
  Proof. reflexivity. Qed.
  Lemma differences_ok gs : (forall g, In g gs -> g <> []) ->
    (forall g nb, In g gs -> In nb g -> exists na, traced reg0 reg acts singles na nb /\ fit na) ->
    exists ds, differences SHIFT acts singles gs = Ok ds /\ map fst ds = consecutive (map (map fst) gs) /\
    forall a b res, In (a, b, res) ds -> exists na na' nb nb', fst na = a /\ fst na' = b /\ traced reg0 reg acts singles na nb /\ traced reg0 reg acts singles na' nb' /\ reports na na' res.
  Proof using shift_pos shift_even acts_nodup acts_hd.
    induction gs as [|g gs IH]; intros NE HK; [exists []; split; [reflexivity|]; split; [reflexivity|]; intros a b res []|].
    destruct IH as (ds & E & M & H); [intros; apply NE; now right|intros; eapply HK; [right|]; eauto|].
    destruct gs as [|g2 gs].
    - exists []. split; [reflexivity|]. split; [|intros a b res []]. destruct g as [|[n b] g]; reflexivity.
    - destruct g as [|[n1 b1] g]; [exfalso; apply (NE []); [now left|reflexivity]|]. destruct g2 as [|[n2 b2] g2]; [exfalso; apply (NE []); [right; now left|reflexivity]|].
      destruct (HK _ (n1, b1) (or_introl eq_refl) (or_introl eq_refl)) as (na & K1 & V1). destruct (HK _ (n2, b2) (or_intror (or_introl eq_refl)) (or_introl eq_refl)) as (na' & K2 & V2).
      destruct (pair_ok _ _ _ _ K1 K2 V1 V2) as (S & S' & res & D1 & D2 & F & R). cbn [fst snd] in *.
      exists ((n1, n2, res) :: ds). rewrite differences_eq. unfold single_of. rewrite D1, D2. cbn [rbind]. rewrite F. cbn [rbind fst snd].
      rewrite E. cbn [rbind]. split; [reflexivity|]. split; [cbn [map fst consecutive] in M |- *; now rewrite M|].
      intros a b rs [[= <- <- <-]|I]; [|eauto]. exists na, na', (n1, b1), (n2, b2). split; [apply K1|]. split; [apply K2|]. auto.
  Qed.
End Report.

(** ** The whole command *)
Lemma process_names SHIFT dc rulesets : forall w reg w' reg', sfold (process SHIFT dc) rulesets w reg = (reg', Ok w') -> map fst (w_canon w') = map fst (w_canon w) ++ map fst rulesets.
Proof.
  induction rulesets as [|[n A] rulesets IH]; intros w reg w' reg' E; cbn [sfold] in E; [injection E as _ <-; now rewrite app_nil_r|].
  unfold sbind at 1 in E. destruct (process SHIFT dc w (n, A) reg) as [reg1 [w1|e]] eqn:E1; [|discriminate E]. rewrite (IH _ _ _ _ E).
  unfold process, sbind, slift, sret in E1. destruct (to_single_table _ _ _) as [r1 [S|e]]; [|discriminate E1]. destruct (if dc then _ else _) as [x|e]; [|discriminate E1].
  injection E1 as <- <-. cbn [w_canon]. rewrite map_app, <- app_assoc. reflexivity.
Qed.
Lemma compare_run SHIFT o rulesets reg reg' lines ds : compare_rulesets SHIFT o rulesets reg = (reg', Ok (Lines lines ds)) ->
  exists w gs, sfold (process SHIFT (op_dc o)) rulesets (mkWork acts_init [] []) reg = (reg', Ok w) /\ group_equal (w_canon w) = Ok gs /\ lines = map (map fst) gs /\
    (if op_difference o then differences SHIFT (w_acts w) (w_single w) gs else Ok []) = Ok ds /\ exists x y rest, rulesets = x :: y :: rest.
Proof.
  unfold compare_rulesets. destruct rulesets as [|x others]; [discriminate|]. unfold sbind at 1. destruct (sfold _ _ _ _) as [r1 [w|e]] eqn:E; [|discriminate].
  destruct others as [|y rest]; [discriminate|]. unfold sbind, slift, sret. destruct (group_equal (w_canon w)) as [gs|e] eqn:G; [|discriminate].
  destruct (if op_difference o then _ else _) as [ds'|e] eqn:D; [|discriminate]. intros [= <- <- <-]. exists w, gs. eauto 8.
Qed.
Lemma tool_run SHIFT load o reg0 reg rulesets reg' out : load_all load o reg0 = (reg, Ok rulesets) -> check_equivalence SHIFT load o reg0 = (reg', Ok out) ->
  compare_rulesets SHIFT o rulesets reg = (reg', Ok out).
Proof. intros L. unfold check_equivalence, sbind. now rewrite L. Qed.
Lemma tool_load SHIFT load o reg0 reg' out : check_equivalence SHIFT load o reg0 = (reg', Ok out) -> exists reg rulesets, load_all load o reg0 = (reg, Ok rulesets).
Proof. unfold check_equivalence, sbind. destruct (load_all load o reg0) as [r [d|e]]; [eauto|discriminate]. Qed.
Lemma load_names load o reg0 reg rulesets : load_all load o reg0 = (reg, Ok rulesets) -> NoDup (map fst rulesets) /\ forall n, In n (map fst rulesets) <-> In n (map fst (jobs o)).
Proof.
  intros L. destruct (load_nodup load _ _ _ _ _ L (NoDup_nil _)) as (H1 & H2 & _). split; [exact H1|]. intros n. rewrite H2. cbn. tauto.
Qed.
Lemma run_known SHIFT dc rulesets reg w reg' : 0 < SHIFT -> SHIFT mod 2 = 0 -> reg_ok reg -> NoDup (map fst rulesets) -> (forall na, In na rulesets -> Forall (good_rule reg true) (snd na)) ->
  sfold (process SHIFT dc) rulesets (mkWork acts_init [] []) reg = (reg', Ok w) ->
  NoDup (w_acts w) /\ hd_error (w_acts w) = Some DIFFERENT /\ Forall2 (traced reg reg' (w_acts w) (w_single w)) rulesets (w_canon w).
Proof.
  intros Hs He HR ND HG E. destruct (process_run SHIFT Hs He dc reg rulesets [] (mkWork acts_init [] []) reg w reg' E) as (_ & _ & H1 & H2 & H3); auto.
  - apply rle_refl.
  - repeat constructor; intros [].
  - constructor.
Qed.
(** one ruleset goes through *)
Lemma norm_total SHIFT reg acts S : rules_ok reg S -> (forall r, In r S -> is_ok (rule_actions r) = true) -> one_table S = true -> exists a b, normalise_naive SHIFT None acts S = Ok (a, b).
Proof.
  intros H A T. destruct (plain_entries S reg H A) as (es & E & _). rewrite naive_eq, T, E. cbn [rbind]. destruct (fold_left _ _ _) as [a b]. eauto.
Qed.
