(** The prefix-table builders: the chain holds the prefixes that enclose the last one. *)
From Coq Require Import Lia Permutation Sorted.
From Coq Require Import ZifyBool ZifyNat ZifyN.
From Verif Require Import SpecBdd WildcardProofs MatchProofs BddProofs CuddProofs BddApi SpecPipeline MergeProofs MatchWcProofs Deps SpecDeps DepsProofs DepsTable DepsAny MiscProofs.
Local Open Scope string_scope.
Local Open Scope list_scope.
Local Open Scope Z_scope.
Local Opaque NB WC_FULLWC layout oxm_fields registry_init.

(** ** Prefixes as numbers *)
Definition good (n l : Z) : Prop := 0 <= l <= 32 /\ 0 <= n < 2 ^ 32 /\ n mod 2 ^ (32 - l) = 0.
Definition before (n l n' l' : Z) : Prop := n < n' \/ (n = n' /\ l < l').
Definition meet (n l n' l' : Z) : Prop := n / 2 ^ (32 - Z.min l l') = n' / 2 ^ (32 - Z.min l l').
Lemma good_mult n l : good n l -> forall k, 0 <= k <= 32 - l -> n = 2 ^ k * (n / 2 ^ k).
Proof.
  intros (L & N & M) k K. assert (P : 0 < 2 ^ k) by (apply Z.pow_pos_nonneg; lia).
  assert (D := Z.div_mod n (2 ^ k) ltac:(lia)). assert (X : n mod 2 ^ k = 0); [|lia].
  apply Z.mod_divide in M; [|pose proof (Z.pow_pos_nonneg 2 (32 - l)); lia]. apply Z.mod_divide; [lia|].
  destruct M as [q ->]. exists (q * 2 ^ (32 - l - k)). rewrite <- Z.mul_assoc, <- Z.pow_add_r by lia. do 2 f_equal. lia.
Qed.
Lemma enc_before n l n' l' : good n l -> encloses n l n' l' -> before n l n' l'.
Proof.
  intros G (L & E). assert (X := good_mult n l G (32 - l) ltac:(destruct G; lia)). assert (P : 0 < 2 ^ (32 - l)) by (apply Z.pow_pos_nonneg; destruct G; lia).
  assert (D := Z.mul_div_le n' (2 ^ (32 - l)) P). rewrite E in D. unfold before. lia.
Qed.
Lemma meet_enc n l n' l' : good n l -> good n' l' -> before n l n' l' -> (meet n l n' l' <-> encloses n l n' l').
Proof.
  intros G G' B. unfold meet, encloses. destruct (Z_lt_ge_dec l l') as [A|A].
  - rewrite Z.min_l by lia. intuition congruence.
  - split; [|lia]. rewrite Z.min_r by lia. intros E. exfalso.
    assert (X' := good_mult n' l' G' (32 - l') ltac:(destruct G'; lia)). assert (P : 0 < 2 ^ (32 - l')) by (apply Z.pow_pos_nonneg; destruct G'; lia).
    assert (D := Z.mul_div_le n (2 ^ (32 - l')) P). rewrite E in D. unfold before in B. lia.
Qed.
Lemma enc_trans n l n' l' m k : good n l -> good n' l' -> 0 <= m -> encloses n l n' l' -> encloses n' l' m k -> encloses n l m k.
Proof.
  intros G G' M (L & E) (L' & E'). split; [lia|]. rewrite <- E.
  assert (Q : forall x, 0 <= x -> x / 2 ^ (32 - l) = x / 2 ^ (32 - l') / 2 ^ (l' - l)).
  { intros x Hx. destruct G as (G & _), G' as (G' & _). rewrite Z.div_div by (try apply Z.pow_pos_nonneg; lia). rewrite <- Z.pow_add_r by lia. do 2 f_equal. lia. }
  rewrite (Q m), (Q n') by (destruct G' as (_ & ? & _); lia). now rewrite E'.
Qed.
Lemma enc_between n l n' l' m k : good n l -> good n' l' -> before n l n' l' -> before n' l' m k -> encloses n l m k -> encloses n l n' l'.
Proof.
  intros G G' B B' (L & E). assert (P : 0 < 2 ^ (32 - l)) by (apply Z.pow_pos_nonneg; destruct G; lia).
  assert (Q : n' / 2 ^ (32 - l) = n / 2 ^ (32 - l)).
  { assert (A1 := Z.div_le_mono n n' (2 ^ (32 - l)) P ltac:(unfold before in *; lia)). assert (A2 := Z.div_le_mono n' m (2 ^ (32 - l)) P ltac:(unfold before in *; lia)). lia. }
  split; [|exact Q]. destruct (Z_lt_ge_dec l l') as [A|A]; [lia|]. exfalso.
  assert (X := good_mult n l G (32 - l) ltac:(destruct G; lia)). assert (X' := good_mult n' l' G' (32 - l) ltac:(destruct G, G'; lia)). unfold before in B. lia.
Qed.

(** ** The chain *)
Section Chain.
  Context {A : Type} (net len : A -> Z).
  Definition encb (x c : A) : bool := (len c <? len x) && (net x / 2 ^ (32 - len c) =? net c / 2 ^ (32 - len c)).
  Lemma encb_spec x c : encb x c = true <-> encloses (net c) (len c) (net x) (len x).
  Proof. unfold encb, encloses. lia. Qed.
  Definition bef (c x : A) : Prop := before (net c) (len c) (net x) (len x).
  Definition gd (x : A) : Prop := good (net x) (len x).
  Lemma filter_all {B} (f : B -> bool) l : (forall x, In x l -> f x = true) -> filter f l = l.
  Proof. induction l as [|x l IH]; intros H; cbn [filter]; [reflexivity|]. rewrite H by now left. f_equal. apply IH. intros y Hy. apply H. now right. Qed.
  Lemma pop_filter ov x L : gd x -> Forall gd L -> ForallOrdPairs (fun c b => encloses (net b) (len b) (net c) (len c)) L ->
    (forall c, In c L -> ov c = Ok (encb x c)) -> (exists c, In c L /\ encb x c = true) -> pop_chain ov L = Ok (filter (encb x) L).
  Proof.
    intros Gx GL FO Hov (c0 & Hc0 & Ec0). revert FO. induction L as [|c L IH]; intros FO; [destruct Hc0|].
    inversion FO as [|? ? Fc FL]; subst. inversion GL as [|? ? Gc GL']; subst. cbn [pop_chain filter]. rewrite (Hov c) by now left. cbn [rbind].
    destruct (encb x c) eqn:E.
    - f_equal. f_equal. symmetry. apply filter_all. intros b Hb. apply encb_spec. apply encb_spec in E. rewrite Forall_forall in Fc, GL'.
      apply (enc_trans _ _ (net c) (len c) _ _ (GL' b Hb) Gc); [destruct Gx as (_ & ? & _); lia|now apply Fc|exact E].
    - apply IH; auto. + intros b Hb. apply Hov. now right. + destruct Hc0 as [<-|H]; [congruence|exact H].
  Qed.
  (** [anc W x]: the rules of [W] enclosing [x], longest first *)
  Definition anc (W : list A) (x : A) : list A := filter (encb x) (rev W).
  Lemma filter_filter {B} (f g : B -> bool) l : (forall x, In x l -> f x = true -> g x = true) -> filter f (filter g l) = filter f l.
  Proof.
    induction l as [|x l IH]; intros H; cbn [filter]; [reflexivity|]. assert (Hx := H x (or_introl eq_refl)). rewrite <- IH by (intros y Hy; apply H; now right).
    destruct (g x) eqn:G; cbn [filter]; [reflexivity|]. destruct (f x); [specialize (Hx eq_refl); congruence|reflexivity].
  Qed.
  Lemma sorted_app_inv {B} (R : B -> B -> Prop) l1 l2 : StronglySorted R (l1 ++ l2) -> StronglySorted R l1 /\ StronglySorted R l2 /\ forall x y, In x l1 -> In y l2 -> R x y.
  Proof.
    induction l1 as [|a l1 IH]; cbn [app]; intros H; [repeat split; [constructor|auto|intros x y []]|]. inversion H as [|? ? S0 F]; subst. destruct (IH S0) as (A1 & A2 & A3).
    rewrite Forall_forall in F. split; [constructor; [auto|apply Forall_forall; intros y Hy; apply F, in_or_app; auto]|]. split; [auto|].
    intros x y [<-|Hx] Hy; [apply F, in_or_app; auto|auto].
  Qed.
  (** the chain after [D ++ [z]] *)
  Definition chain_of (D : list A) (z : A) : list A := z :: filter (encb z) (rev D).
  Lemma anc_pairs W : StronglySorted bef W -> Forall gd W -> forall x, gd x -> ForallOrdPairs (fun c b => encloses (net b) (len b) (net c) (len c)) (filter (encb x) (rev W)).
  Proof.
    intros S0 G x Gx. induction W as [|a W IH] using rev_ind; [constructor|]. rewrite rev_app_distr. cbn [rev app filter].
    destruct (sorted_app_inv _ _ _ S0) as (S1 & _ & S2). apply Forall_app in G as [G1 G2]. inversion G2 as [|? ? Ga _]; subst.
    destruct (encb x a) eqn:E; [|auto]. constructor; [|auto]. apply Forall_forall. intros b Hb. apply filter_In in Hb as [Hb Eb]. apply in_rev in Hb.
    apply encb_spec in E, Eb. rewrite Forall_forall in G1. apply (enc_between _ _ _ _ (net x) (len x) (G1 b Hb) Ga); [apply S2; [auto|now left]| |exact Eb].
    apply enc_before; auto.
  Qed.
  Lemma chain_step ov D z x : StronglySorted bef (D ++ [z; x]) -> Forall gd (D ++ [z; x]) ->
    (forall c, In c (D ++ [z]) -> ov c = Ok (encb x c)) -> (exists c, In c (D ++ [z]) /\ encb x c = true) ->
    pop_chain ov (chain_of D z) = Ok (anc (D ++ [z]) x).
  Proof.
    intros S0 G Hov (c0 & Hc0 & Ec0). destruct (sorted_app_inv _ _ _ S0) as (S1 & S2 & S3). apply Forall_app in G as [G1 G2].
    inversion G2 as [|? ? Gz G3]; subst. inversion G3 as [|? ? Gx _]; subst. inversion S2 as [|? ? _ F]; subst. inversion F as [|? ? Bzx _]; subst.
    assert (Fl : filter (encb x) (chain_of D z) = anc (D ++ [z]) x).
    { unfold chain_of, anc. rewrite rev_app_distr. cbn [rev app filter]. rewrite filter_filter; [reflexivity|].
      intros c Hc Ec. apply in_rev in Hc. apply encb_spec in Ec. apply encb_spec. rewrite Forall_forall in G1.
      apply (enc_between _ _ _ _ (net x) (len x) (G1 c Hc) Gz); [apply S3; [auto|now left]|exact Bzx|exact Ec]. }
    rewrite <- Fl. apply pop_filter; auto.
    - constructor; [auto|]. apply Forall_forall. intros c Hc. apply filter_In in Hc as [Hc _]. apply in_rev in Hc. rewrite Forall_forall in G1. auto.
    - constructor; [|now apply anc_pairs]. apply Forall_forall. intros c Hc. apply filter_In in Hc as [_ Ec]. now apply encb_spec.
    - intros c [<-|Hc]; apply Hov, in_or_app; [right; now left|]. left. apply filter_In in Hc as [Hc _]. now apply in_rev.
    - exists c0. split; [|exact Ec0]. assert (X : In c0 (anc (D ++ [z]) x)) by (apply filter_In; split; [now apply in_rev; rewrite rev_involutive|exact Ec0]).
      rewrite <- Fl in X. now apply filter_In in X.
  Qed.
  (** nothing after [x] encloses it *)
  Lemma anc_prefix D x t : StronglySorted bef (D ++ x :: t) -> Forall gd (D ++ x :: t) -> anc (D ++ x :: t) x = anc D x.
  Proof.
    intros S0 G. unfold anc. rewrite rev_app_distr, filter_app. assert (X : filter (encb x) (rev (x :: t)) = []); [|now rewrite X].
    destruct (sorted_app_inv _ _ _ S0) as (_ & S2 & _). inversion S2 as [|? ? _ F]; subst. apply Forall_app in G as [_ G]. rewrite Forall_forall in F, G.
    destruct (filter _ _) as [|c l] eqn:E; [reflexivity|]. exfalso. assert (H : In c (filter (encb x) (rev (x :: t)))) by (rewrite E; now left).
    apply filter_In in H as [H Ec]. apply in_rev in H. apply encb_spec in Ec. assert (B := enc_before _ _ _ _ (G c H) Ec). 
    destruct H as [<-|H]; [|specialize (F c H)]; unfold bef, before in *; lia.
  Qed.
  (** the head of [anc] is the longest enclosing prefix *)
  Lemma anc_head W x c t : StronglySorted bef W -> Forall gd W -> gd x -> anc W x = c :: t ->
    In c W /\ encloses (net c) (len c) (net x) (len x) /\ forall b, In b W -> encloses (net b) (len b) (net x) (len x) -> b = c \/ len b < len c.
  Proof.
    intros S0 G Gx E. assert (Fo := anc_pairs W S0 G x Gx). fold (anc W x) in Fo. rewrite E in Fo. inversion Fo as [|? ? F _]; subst.
    assert (H : In c (anc W x)) by (rewrite E; now left). apply filter_In in H as [H1 H2]. apply in_rev in H1. apply encb_spec in H2. split; [auto|]. split; [auto|].
    intros b Hb Eb. assert (X : In b (anc W x)) by (apply filter_In; split; [now apply in_rev; rewrite rev_involutive|now apply encb_spec]).
    rewrite E in X. destruct X as [X|X]; [auto|right]. rewrite Forall_forall in F. apply (F b X).
  Qed.
End Chain.

(** ** Prefix rules and their packets *)
Definition dnet (R : rule) : Z := match mget (rmatch (rcore R)) "IPV4_DST" with Some (v, _, _) => v | None => 0 end.
Definition isp (R : rule) : Prop := ipv4_prefix R (dnet R) (priority (rcore R)).
Lemma prefix_items R n l : ipv4_prefix R n l -> exists k id, m_items (rmatch (rcore R)) = [("IPV4_DST", (n, k, id))].
Proof.
  intros (_ & _ & _ & _ & k & E & _). destruct (m_items (rmatch (rcore R))) as [|[a [[v m] id]] [|y t]]; try discriminate E.
  cbn [items_view map] in E. injection E as -> -> ->. eauto.
Qed.
Lemma prefix_key_ok i R n l : ipv4_prefix R n l -> dnet R = n /\ priority (rcore R) = l /\ prefix_key (i, R) = Ok (n, l).
Proof.
  intros H. destruct (prefix_items R n l H) as (k & id & E). assert (P := proj1 (proj2 H)).
  assert (G : mget (rmatch (rcore R)) "IPV4_DST" = Some (n, k, id)) by (unfold mget; rewrite E; reflexivity).
  unfold dnet, prefix_key. cbn [snd]. rewrite G, P. auto.
Qed.
Lemma prefix_isp R n l : ipv4_prefix R n l -> isp R.
Proof. intros H. destruct (prefix_key_ok 0 R n l H) as (E1 & E2 & _). unfold isp. now rewrite E1, E2. Qed.
Lemma isp_good R : isp R -> good (dnet R) (priority (rcore R)).
Proof. intros (A & _ & B & C & _). split; auto. Qed.
Lemma pmask_bits l j : 0 <= l <= 32 -> 0 <= j < 32 -> Z.testbit (2 ^ 32 - 2 ^ (32 - l)) j = (32 - l <=? j).
Proof.
  intros L J. assert (E : 2 ^ 32 - 2 ^ (32 - l) = Z.shiftl (Z.ones l) (32 - l)).
  { rewrite Z.shiftl_mul_pow2, Z.ones_equiv by lia. assert (X : 2 ^ 32 = 2 ^ l * 2 ^ (32 - l)) by (rewrite <- Z.pow_add_r by lia; f_equal; lia). lia. }
  rewrite E, Z.shiftl_spec by lia. destruct (Z_lt_ge_dec j (32 - l)) as [A|A]; [rewrite Z.testbit_neg_r by lia; lia|].
  rewrite Z.ones_spec_low by lia. lia.
Qed.
Lemma prefix_accepts R s p : isp R -> In s layout -> sl_name s = "IPV4_DST" -> sl_bits s = 32 ->
  (rule_accepts R p <-> forall j, 32 - priority (rcore R) <= j < 32 -> field_bit p s j = Z.testbit (dnet R) j).
Proof.
  intros (L & _ & N & _ & k & E & K) S1 S2 S3. unfold rule_accepts. rewrite E.
  assert (M : forall j, 0 <= j < 32 -> match k with None => true | Some m => Z.testbit m j end = (32 - priority (rcore R) <=? j)).
  { intros j J. destruct K as [[Q ->]| ->]; [lia|]. now apply pmask_bits. }
  split.
  - intros H j J. apply (H _ (or_introl eq_refl) s S1 S2 j); [lia|]. cbn [snd]. rewrite M; lia.
  - intros H it [<-|[]] s' S' Q j J. cbn [fst snd] in *. assert (s' = s) by (apply slot_name_inj; auto; congruence). subst s'. rewrite S3 in J.
    rewrite M by auto. intros X. apply H. lia.
Qed.
Lemma prefix_meet R S0 : isp R -> isp S0 -> ((exists p, rule_accepts R p /\ rule_accepts S0 p) <-> meet (dnet R) (priority (rcore R)) (dnet S0) (priority (rcore S0))).
Proof.
  intros HR HS. destruct dst_slot as (s & S1 & S2 & S3). assert (GR := isp_good R HR). assert (GS := isp_good S0 HS).
  assert (H := fun p => prefix_accepts R s p HR S1 S2 S3). assert (H' := fun p => prefix_accepts S0 s p HS S1 S2 S3).
  unfold meet. destruct GR as (LR & NR & _), GS as (LS & NS & _). rewrite high_bits by lia. split.
  - intros (p & A & B) j J. rewrite H in A. rewrite H' in B. rewrite <- A, <- B by lia. reflexivity.
  - intros E. destruct (Z_le_gt_dec (priority (rcore R)) (priority (rcore S0))) as [Q|Q].
    + exists (fun b => Z.testbit (dnet S0) (b - sl_off s)). rewrite H, H'. unfold field_bit.
      split; intros j J; replace (sl_off s + j - sl_off s) with j by lia; [symmetry; apply E; lia|reflexivity].
    + exists (fun b => Z.testbit (dnet R) (b - sl_off s)). rewrite H, H'. unfold field_bit.
      split; intros j J; replace (sl_off s + j - sl_off s) with j by lia; [reflexivity|apply E; lia].
Qed.
(** a packet of a prefix is in the prefixes enclosing it *)
Lemma prefix_inside R S0 p : isp R -> isp S0 -> encloses (dnet S0) (priority (rcore S0)) (dnet R) (priority (rcore R)) -> rule_accepts R p -> rule_accepts S0 p.
Proof.
  intros HR HS (L & E) A. destruct dst_slot as (s & S1 & S2 & S3). rewrite (prefix_accepts R s p HR S1 S2 S3) in A. apply (prefix_accepts S0 s p HS S1 S2 S3).
  assert (GR := isp_good R HR). assert (GS := isp_good S0 HS). destruct GR as (LR & NR & _), GS as (LS & NS & _). rewrite high_bits in E by lia.
  intros j J. rewrite A by lia. apply E. lia.
Qed.

(** ** The loops *)
Lemma eset_fresh {V} (d : list (edge * V)) k v : ~ In k (map fst d) -> eset d k v = d ++ [(k, v)].
Proof.
  induction d as [|[a x] d IH]; cbn [eset map fst In app]; intros H; [reflexivity|]. destruct (edge_eqb_spec a k) as [->|N]; [tauto|]. f_equal. apply IH. tauto.
Qed.
Lemma eset_all {V A} (f : A -> edge) (g : A -> V) (l : list A) : forall d, NoDup (map fst d ++ map f l) ->
  fold_left (fun r x => eset r (f x) (g x)) l d = d ++ map (fun x => (f x, g x)) l.
Proof.
  induction l as [|x l IH]; intros d H; cbn [fold_left map]; [now rewrite app_nil_r|]. cbn [map] in H.
  rewrite eset_fresh.
  - rewrite IH; [now rewrite <- app_assoc|]. rewrite map_app. cbn [map fst]. now rewrite <- app_assoc.
  - intros X. apply NoDup_remove_2 in H. apply H. apply in_or_app. now left.
Qed.
Lemma fold_left_ext {A B} (f g : A -> B -> A) l : (forall a x, f a x = g a x) -> forall a, fold_left f l a = fold_left g l a.
Proof. intros H. induction l as [|x l IH]; intros a; cbn [fold_left]; [reflexivity|]. now rewrite H, IH. Qed.
Section Loops.
  Context {A : Type} (net len : A -> Z) (W : list A) (sorted : StronglySorted (bef net len) W) (goods : Forall (gd net len) W)
          (rooted : forall D z x t, W = D ++ z :: x :: t -> exists c, In c (D ++ [z]) /\ encb net len x c = true).
  Lemma loop_step ov D z x t : W = D ++ z :: x :: t -> (forall c, In c (D ++ [z]) -> ov c = Ok (encb net len x c)) ->
    pop_chain ov (chain_of net len D z) = Ok (anc net len W x) /\ W = (D ++ [z]) ++ x :: t /\ x :: anc net len W x = chain_of net len (D ++ [z]) x /\ anc net len W x <> [].
  Proof.
    intros E Hov. assert (E' : W = (D ++ [z]) ++ x :: t) by (rewrite <- app_assoc; exact E). assert (S0 := sorted). assert (G := goods). rewrite E' in S0, G.
    assert (P := anc_prefix net len _ _ _ S0 G). rewrite <- E' in P. destruct (rooted D z x t E) as (c & Hc & Ec).
    assert (E2 : W = (D ++ [z; x]) ++ t) by (rewrite <- app_assoc; exact E). assert (S1 := sorted). assert (G1 := goods). rewrite E2 in S1, G1.
    destruct (sorted_app_inv _ _ _ S1) as (S2 & _). apply Forall_app in G1 as [G1 _].
    split; [rewrite P; apply chain_step; eauto|]. split; [exact E'|]. split; [rewrite P; reflexivity|].
    rewrite P. intros X. assert (Y : In c (anc net len (D ++ [z]) x)) by (apply filter_In; split; [now apply in_rev; rewrite rev_involutive|exact Ec]). rewrite X in Y. destruct Y.
  Qed.
End Loops.
Definition nnet (n : node) : Z := dnet (nrule n).
Definition nlen (n : node) : Z := nprio n.
Definition onet (x : nat * rule) : Z := dnet (snd x).
Definition olen (x : nat * rule) : Z := priority (rcore (snd x)).
Definition wcof (x : nat * rule) : Z := match rule_wc (snd x) with Ok w => w | Err _ => 0 end.
Lemma bdd_loop W : StronglySorted (bef nnet nlen) W -> Forall (gd nnet nlen) W ->
  (forall D z x t, W = D ++ z :: x :: t -> exists c, In c (D ++ [z]) /\ encb nnet nlen x c = true) ->
  (forall c x, In c W -> In x W -> bef nnet nlen c x -> cudd_bool (binter (nbdd c) (nbdd x)) = encb nnet nlen x c) ->
  forall l D z d, W = D ++ z :: l ->
  prefix_bdd (chain_of nnet nlen D z) l d = Ok (fold_left (fun r x => eset r (nid x, nid (hd x (anc nnet nlen W x))) (nbdd x)) l d).
Proof.
  intros S0 G Ro Ov. induction l as [|x l IH]; intros D z d E; cbn [prefix_bdd fold_left]; [reflexivity|].
  destruct (loop_step nnet nlen W S0 G Ro (fun c => Ok (cudd_bool (binter (nbdd c) (nbdd x)))) D z x l E) as (P & E' & C & N).
  { intros c Hc. f_equal. apply Ov.
    - rewrite E. apply in_app_iff in Hc as [Hc|[<-|[]]]; apply in_or_app; [now left|right; now left].
    - rewrite E. apply in_or_app. right. right. now left.
    - assert (S1 := S0). rewrite E in S1. replace (D ++ z :: x :: l) with ((D ++ [z]) ++ x :: l) in S1 by (rewrite <- app_assoc; reflexivity).
      apply sorted_app_inv in S1 as (_ & _ & S1). apply S1; [auto|now left]. }
  rewrite P. cbn [rbind]. destruct (anc nnet nlen W x) as [|c t] eqn:EA; [now elim N|]. cbn [top rbind hd].
  rewrite C. apply IH. exact E'.
Qed.
Lemma wc_loop W : StronglySorted (bef onet olen) W -> Forall (gd onet olen) W ->
  (forall D z x t, W = D ++ z :: x :: t -> exists c, In c (D ++ [z]) /\ encb onet olen x c = true) ->
  (forall c x, In c W -> In x W -> bef onet olen c x -> wc_overlap x c = Ok (encb onet olen x c)) ->
  (forall x, In x W -> rule_wc (snd x) = Ok (wcof x)) ->
  forall l D z, W = D ++ z :: l ->
  (forall d, prefix_wc (chain_of onet olen D z) l d = Ok (fold_left (fun r x => eset r (fst x, fst (hd x (anc onet olen W x))) (wcof x)) l d)) /\
  (forall d, prefix_all (chain_of onet olen D z) l d = Ok (d ++ flat_map (fun x => map (fun c => (fst x, fst c)) (rev (anc onet olen W x))) l)).
Proof.
  intros S0 G Ro Ov Wc. induction l as [|x l IH]; intros D z E; cbn [prefix_wc prefix_all fold_left flat_map]; [split; [reflexivity|intros d; now rewrite app_nil_r]|].
  destruct (loop_step onet olen W S0 G Ro (wc_overlap x) D z x l E) as (P & E' & C & N).
  { intros c Hc. apply Ov.
    - rewrite E. apply in_app_iff in Hc as [Hc|[<-|[]]]; apply in_or_app; [now left|right; now left].
    - rewrite E. apply in_or_app. right. right. now left.
    - assert (S1 := S0). rewrite E in S1. replace (D ++ z :: x :: l) with ((D ++ [z]) ++ x :: l) in S1 by (rewrite <- app_assoc; reflexivity).
      apply sorted_app_inv in S1 as (_ & _ & S1). apply S1; [auto|now left]. }
  rewrite P. cbn [rbind]. rewrite (Wc x) by (rewrite E; apply in_or_app; right; right; now left).
  destruct (IH (D ++ [z]) x E') as [I1 I2]. rewrite <- C in I1, I2. split; intros d.
  - destruct (anc onet olen W x) as [|c t] eqn:EA; [now elim N|]. cbn [top rbind hd]. apply I1.
  - rewrite I2. now rewrite <- app_assoc.
Qed.

(** ** The whole table *)
Lemma sorted_strict (ks : list ((Z * Z) * (nat * rule))) : (forall a, In a ks -> fst a = (onet (snd a), olen (snd a))) -> NoDup (map fst ks) ->
  StronglySorted (fun a b => key_le2 a b = true) ks -> StronglySorted (bef onet olen) (map snd ks).
Proof.
  intros H ND S0. induction S0 as [|a ks S0 IH F]; cbn [map]; [constructor|]. cbn [map] in ND. inversion ND as [|? ? Na ND']; subst.
  constructor; [apply IH; auto; intros b Hb; apply H; now right|]. apply Forall_forall. intros y Hy. apply in_map_iff in Hy as (b & <- & Hb).
  rewrite Forall_forall in F. assert (L := F b Hb). assert (Ea := H a (or_introl eq_refl)). assert (Eb := H b (or_intror Hb)).
  assert (Ne : fst a <> fst b) by (intros X; apply Na; rewrite X; now apply in_map). unfold key_le2 in L. rewrite Ea, Eb in *. cbn [fst snd] in *.
  unfold bef, before. destruct (Z.eq_dec (onet (snd a)) (onet (snd b))) as [Q|Q]; [|lia]. right. split; [auto|].
  destruct (Z.eq_dec (olen (snd a)) (olen (snd b))); [|lia]. elim Ne. congruence.
Qed.
Section Table.
  Context (r : registry) (rules : list rule) (P : list (Z * Z)) (Hok : forall R, In R rules -> match_ok r (rmatch (rcore R))) (HP : prefix_table rules P).
  Lemma nth_prefix i R : nth_error rules i = Some R -> nth_error P i = Some (dnet R, priority (rcore R)) /\ isp R.
  Proof.
    destruct HP as (F & _). clear HP Hok. revert i. induction F as [|R' q rs P' E F IH]; intros [|i] H; try discriminate H; cbn [nth_error] in *; [|now apply IH].
    injection H as ->. destruct (prefix_key_ok 0 R _ _ E) as (A & B & _). destruct q as [n l]. cbn [fst snd] in *. split; [congruence|]. eapply prefix_isp; eauto.
  Qed.
  Lemma nth_rule i n l : nth_error P i = Some (n, l) -> exists R, nth_error rules i = Some R /\ dnet R = n /\ priority (rcore R) = l /\ isp R.
  Proof.
    intros H. destruct (nth_error rules i) as [R|] eqn:E.
    - destruct (nth_prefix i R E) as [A B]. exists R. rewrite A in H. injection H as <- <-. auto.
    - exfalso. destruct HP as (F & _). clear - F H E. revert i H E. induction F as [|R' q rs P' E' F IH]; intros [|i] H E; try discriminate; cbn [nth_error] in *; eauto.
  Qed.
  Definition keys (l : list (nat * rule)) := map (fun x => ((onet x, olen x), x)) l.
  Definition W : list (nat * rule) := map snd (sort_by key_le2 (keys (objects rules))).
  Lemma obj_isp x : In x (objects rules) -> isp (snd x).
  Proof. destruct x as [i R]. intros H. apply objects_in in H. now apply (nth_prefix i R). Qed.
  Lemma keyed_ok : keyed (objects rules) = Ok (keys (objects rules)).
  Proof.
    assert (H := obj_isp). induction (objects rules) as [|[i R] l IH]; cbn [keyed keys map]; [reflexivity|].
    assert (HR := H (i, R) (or_introl eq_refl)). destruct (prefix_key_ok i R _ _ HR) as (_ & _ & K). rewrite K. cbn [rbind].
    rewrite IH by (intros y Hy; apply H; now right). reflexivity.
  Qed.
  Lemma sort_ok : prefix_sort (objects rules) = Ok W.
  Proof. unfold prefix_sort. rewrite keyed_ok. reflexivity. Qed.
  Lemma W_perm : Permutation W (objects rules).
  Proof.
    unfold W. rewrite (Permutation_map snd (sort_by_perm key_le2 (keys (objects rules)))). unfold keys. rewrite map_map. cbn [snd]. now rewrite map_id.
  Qed.
  Lemma W_in x : In x W <-> In x (objects rules).
  Proof. split; apply Permutation_in; [|apply Permutation_sym]; apply W_perm. Qed.
  Lemma obj_keys : map (fun x => (onet x, olen x)) (objects rules) = P.
  Proof.
    unfold objects. destruct HP as (F & _). clear - F. generalize 0%nat. induction F as [|R q rs P' E F IH]; intros k; cbn [List.length seq combine map]; [reflexivity|].
    f_equal; [|apply IH]. destruct (prefix_key_ok 0 R _ _ E) as (A & B & _). unfold onet, olen. cbn [snd]. destruct q as [n l]. cbn [fst snd] in *. congruence.
  Qed.
  Lemma W_sorted : StronglySorted (bef onet olen) W.
  Proof.
    unfold W. apply sorted_strict.
    - intros a Ha. apply (Permutation_in _ (sort_by_perm _ _)) in Ha. apply in_map_iff in Ha as (x & <- & _). reflexivity.
    - apply (Permutation_NoDup (Permutation_map fst (Permutation_sym (sort_by_perm _ _)))). unfold keys. rewrite map_map. cbn [fst]. rewrite obj_keys. apply HP.
    - apply sort_by_sorted.
      + intros [[a b] x] [[c d] y]. unfold key_le2. cbn [fst snd]. lia.
      + intros [[a b] x] [[c d] y] [[e f] z]. unfold key_le2. cbn [fst snd]. lia.
  Qed.
  Lemma W_good : Forall (gd onet olen) W.
  Proof. apply Forall_forall. intros x Hx. apply W_in in Hx. apply isp_good. now apply obj_isp. Qed.
  Lemma W_nodup : NoDup (map fst W).
  Proof.
    apply (Permutation_NoDup (Permutation_map fst (Permutation_sym W_perm))). assert (S0 := objects_sorted rules). unfold objs_sorted in S0.
    induction S0 as [|x l S0 IH F]; cbn [map]; constructor; auto. intros X. apply in_map_iff in X as (y & E & Hy). rewrite Forall_forall in F. specialize (F y Hy). lia.
  Qed.
  Lemma W_head : exists h t, W = h :: t /\ onet h = 0 /\ olen h = 0.
  Proof.
    assert (D : exists x, In x W /\ onet x = 0 /\ olen x = 0).
    { assert (H := proj2 (proj2 HP)). rewrite <- obj_keys in H. apply in_map_iff in H as (x & E & Hx). injection E as E1 E2. exists x. split; [now apply W_in|auto]. }
    destruct D as (x & Hx & N & L). assert (S0 := W_sorted). assert (G := W_good). destruct W as [|h t]; [destruct Hx|]. exists h, t. split; [reflexivity|].
    destruct Hx as [<-|Hx]; [auto|]. inversion S0 as [|? ? _ F]; subst. inversion G as [|? ? Gh _]; subst. rewrite Forall_forall in F. specialize (F x Hx).
    unfold bef, before, gd, good in *. rewrite N, L in *. lia.
  Qed.
  Lemma W_rooted D z x t : W = D ++ z :: x :: t -> exists c, In c (D ++ [z]) /\ encb onet olen x c = true.
  Proof.
    intros E. destruct W_head as (h & t' & E' & N & L). exists h. assert (Hh : In h (D ++ [z])).
    { rewrite E in E'. destruct D as [|d D]; cbn [app] in E'; injection E' as -> _; now left. }
    split; [exact Hh|]. apply encb_spec. assert (S0 := W_sorted). assert (G := W_good). rewrite E in S0, G.
    replace (D ++ z :: x :: t) with ((D ++ [z]) ++ x :: t) in S0, G by (rewrite <- app_assoc; reflexivity).
    apply sorted_app_inv in S0 as (_ & _ & S0). specialize (S0 h x Hh (or_introl eq_refl)). apply Forall_app in G as [_ G]. inversion G as [|? ? (Gx1 & Gx2 & Gx3) _]; subst.
    unfold bef, before, encloses in *. rewrite N, L in *. change (2 ^ (32 - 0)) with (2 ^ 32). rewrite !Z.div_small by lia. split; [|reflexivity].
    destruct (Z.eq_dec (olen x) 0) as [Q|Q]; [|lia]. rewrite Q in Gx3. change (2 ^ (32 - 0)) with (2 ^ 32) in Gx3. rewrite Z.mod_small in Gx3; lia.
  Qed.
  Lemma W_wc x : In x W -> rule_wc (snd x) = Ok (wcof x) /\ wc_ok (wcof x) /\ forall p, accepts (wcof x) p <-> rule_accepts (snd x) p.
  Proof.
    intros H. apply W_in in H. apply objects_rule in H. destruct (match_wc_ok r _ (Hok _ H)) as (w & Ew & Ww & _ & Aw).
    unfold wcof. assert (E : rule_wc (snd x) = Ok w) by exact Ew. rewrite E. auto.
  Qed.
  Lemma W_ov c x : In c W -> In x W -> bef onet olen c x -> ((exists p, rule_accepts (snd c) p /\ rule_accepts (snd x) p) <-> encb onet olen x c = true).
  Proof.
    intros Hc Hx B. apply W_in in Hc, Hx. apply obj_isp in Hc, Hx. rewrite prefix_meet by auto. rewrite encb_spec. exact (meet_enc _ _ _ _ (isp_good _ Hc) (isp_good _ Hx) B).
  Qed.
  Lemma W_overlap c x : In c W -> In x W -> bef onet olen c x -> wc_overlap x c = Ok (encb onet olen x c).
  Proof.
    intros Hc Hx B. destruct (W_wc c Hc) as (E1 & W1 & A1), (W_wc x Hx) as (E2 & W2 & A2). unfold wc_overlap. rewrite E1, E2. cbn [rbind]. f_equal.
    assert (O := W_ov c x Hc Hx B). apply eq_true_iff_eq. rewrite <- O, negb_true_iff, Z.eqb_neq. split.
    - intros N. destruct (wildcard_intersect_cases (wcof c) (wcof x)) as [[Hz E']|[_ E']]; [|congruence].
      destruct (zfree_nonempty _ Hz) as [p Hp]. apply accepts_land in Hp as [H1 H2]. exists p. rewrite <- A1, <- A2. auto.
    - intros (p & H1 & H2) E. apply wildcard_intersect_zero in E. apply E. exists p. now rewrite A1, A2.
  Qed.
  Lemma W_first : exists h, prefix_head W = Ok h /\ hd_error W = Some h.
  Proof.
    destruct W_head as (h & t & E & N & L). exists h. rewrite E. split; [|reflexivity]. unfold prefix_head. fold (olen h). rewrite L. cbn [Z.eqb negb].
    assert (Hh : In h W) by (rewrite E; now left). destruct (W_wc h Hh) as (Ew & Ww & Aw). rewrite Ew. cbn [rbind].
    destruct (match_wc_ok r match_new (match_new_ok r)) as (w0 & E0 & W0 & _ & A0). rewrite E0. cbn [rbind].
    assert (X : wcof h = w0); [|rewrite X, Z.eqb_refl; reflexivity]. apply wc_canonical; auto. intros p. rewrite Aw, A0. split; [intros _ it []|intros _].
    apply W_in, obj_isp in Hh. destruct dst_slot as (s & S1 & S2 & S3). apply (prefix_accepts _ s p Hh S1 S2 S3). unfold olen in L. rewrite L. lia.
  Qed.
  (** membership in [anc], by position *)
  Lemma anc_inside i j R : nth_error rules i = Some R -> ((exists c, In c (anc onet olen W (i, R)) /\ fst c = j) <-> lies_in P i j).
  Proof.
    intros H. destruct (nth_prefix i R H) as [Pi _]. split.
    - intros ([j' S0] & Hc & E). cbn [fst] in E. subst j'. apply filter_In in Hc as [Hc Ec]. apply in_rev, W_in, objects_in in Hc. apply encb_spec in Ec.
      destruct (nth_prefix j S0 Hc) as [Pj _]. do 4 eexists. split; [exact Pi|]. split; [exact Pj|exact Ec].
    - intros (n & l & n' & l' & E1 & E2 & En). rewrite Pi in E1. injection E1 as <- <-. destruct (nth_rule j n' l' E2) as (S0 & HS & <- & <- & _).
      exists (j, S0). split; [|reflexivity]. apply filter_In. split; [apply in_rev; rewrite rev_involutive; now apply W_in, objects_in|now apply encb_spec].
  Qed.
  Lemma anc_longest i j R : nth_error rules i = Some R -> ((exists c t, anc onet olen W (i, R) = c :: t /\ fst c = j) <-> longest P i j).
  Proof.
    intros H. destruct (nth_prefix i R H) as [Pi Ri]. assert (Gi := isp_good R Ri). split.
    - intros ([j' S0] & t & E & Ej). cbn [fst] in Ej. subst j'. destruct (anc_head onet olen W (i, R) (j, S0) t W_sorted W_good Gi E) as (A & B & C). split.
      + apply (anc_inside i j R H). exists (j, S0). rewrite E. split; [now left|reflexivity].
      + intros k m a b I Em Ej. apply (anc_inside i k R H) in I as ([k' T] & Hc & Ek). cbn [fst] in Ek. subst k'. apply filter_In in Hc as [Hc Ec]. apply in_rev in Hc. apply encb_spec in Ec.
        assert (HT := Hc). apply W_in, objects_in in HT. destruct (nth_prefix k T HT) as [Pk _]. rewrite Pk in Em. injection Em as <-.
        apply W_in, objects_in in A. destruct (nth_prefix j S0 A) as [Pj _]. rewrite Pj in Ej. injection Ej as <- <-. cbn [snd].
        destruct (C (k, T) Hc Ec) as [X|X]; [injection X as -> ->; lia|unfold olen in X; cbn [snd] in X; lia].
    - intros (I & Mx). assert (I' := I). apply (anc_inside i j R H) in I' as (c0 & H0 & E0). destruct (anc onet olen W (i, R)) as [|c t] eqn:E; [destruct H0|].
      exists c, t. split; [reflexivity|]. destruct (anc_head onet olen W (i, R) c t W_sorted W_good Gi E) as (A & B & C).
      assert (Hc0 : In c0 (anc onet olen W (i, R))) by (rewrite E; exact H0). apply filter_In in Hc0 as [Hc0 Ec0]. apply in_rev in Hc0. apply encb_spec in Ec0.
      destruct (C c0 Hc0 Ec0) as [X|X]; [congruence|]. exfalso. destruct c as [k T], c0 as [j' S0]. cbn [fst] in E0. subst j'. unfold olen in X. cbn [snd] in X.
      apply W_in, objects_in in A, Hc0. destruct (nth_prefix k T A) as [Pk _]. destruct (nth_prefix j S0 Hc0) as [Pj _].
      assert (Ik : lies_in P i k). { apply (anc_inside i k R H). exists (k, T). rewrite E. split; [now left|reflexivity]. }
      specialize (Mx k _ _ _ Ik Pk Pj). cbn [snd] in Mx. lia.
  Qed.
  Lemma W_tail_inside x : In x (tl W) -> exists c t, anc onet olen W x = c :: t.
  Proof.
    intros Hx. destruct W_head as (h & t & E & _). rewrite E in Hx. cbn [tl] in Hx. apply in_split in Hx as (l1 & l2 & ->).
    assert (Q : exists D z, W = D ++ z :: x :: l2).
    { destruct (exists_last (l := h :: l1)) as (D & z & Ez); [discriminate|]. exists D, z. rewrite E. change (h :: l1 ++ x :: l2) with ((h :: l1) ++ x :: l2). rewrite Ez, <- app_assoc. reflexivity. }
    destruct Q as (D & z & Q). destruct (W_rooted D z x l2 Q) as (c & Hc & Ec).
    assert (X : In c (anc onet olen W x)). { apply filter_In. split; [|exact Ec]. apply in_rev. rewrite rev_involutive, Q. apply in_app_iff in Hc as [Hc|[<-|[]]]; apply in_or_app; [now left|right; now left]. }
    destruct (anc onet olen W x) as [|c' t']; [destruct X|eauto].
  Qed.
  Lemma W_root_alone i R j : nth_error rules i = Some R -> lies_in P i j -> In (i, R) (tl W).
  Proof.
    intros H I. assert (X : In (i, R) W) by (now apply W_in, objects_in). destruct W_head as (h & t & E & N & L). rewrite E in *. destruct X as [X|X]; [|exact X]. exfalso. subst h.
    destruct I as (n & l & n' & l' & E1 & E2 & (Lt & _)). destruct (nth_prefix i R H) as [Pi _]. rewrite Pi in E1. injection E1 as <- <-. unfold olen in L. cbn [snd] in L. rewrite L in Lt.
    destruct (nth_rule j n' l' E2) as (S0 & _ & _ & <- & (G & _)). lia.
  Qed.
  (** the edges of the three builders *)
  Definition direct_edge (x : nat * rule) : edge := (fst x, fst (hd x (anc onet olen W x))).
  Lemma direct_edges i j : In (i, j) (map direct_edge (tl W)) <-> longest P i j.
  Proof.
    rewrite in_map_iff. split.
    - intros ([i' R] & E & Hx). destruct (W_tail_inside _ Hx) as (c & t & Ea). unfold direct_edge in E. rewrite Ea in E. cbn [hd fst] in E. injection E as -> <-.
      assert (H : nth_error rules i = Some R). { apply objects_in, W_in. destruct W; [destruct Hx|now right]. }
      apply (anc_longest i _ R H). eauto.
    - intros L. assert (I := proj1 L). destruct I as (n & l & n' & l' & E1 & _). destruct (nth_rule i n l E1) as (R & H & _). exists (i, R).
      split; [|eapply W_root_alone; [exact H|apply (proj1 L)]]. apply (anc_longest i j R H) in L as (c & t & E & <-). unfold direct_edge. rewrite E. reflexivity.
  Qed.
  Lemma tail_nodup : NoDup (map fst (tl W)).
  Proof. assert (N := W_nodup). destruct W; [constructor|]. cbn [tl map] in *. now inversion N. Qed.
  Lemma direct_nodup : NoDup (map direct_edge (tl W)).
  Proof.
    assert (N := tail_nodup). revert N. generalize (tl W). induction l as [|x l IH]; cbn [map]; intros N; constructor; inversion N as [|? ? Nx N']; subst; auto.
    intros X. apply Nx. apply in_map_iff in X as (y & E & Hy). injection E as E _. rewrite <- E. now apply in_map.
  Qed.
  Lemma wc_runs : build_prefix_table_deps_wc rules = Ok (map (fun x => (direct_edge x, wcof x)) (tl W)).
  Proof.
    unfold build_prefix_table_deps_wc. rewrite sort_ok. cbn [rbind]. destruct W_first as (h & Eh & Hh). rewrite Eh. cbn [rbind].
    destruct W_head as (h' & t & E & _). rewrite E in Hh. injection Hh as ->. rewrite E at 1. cbn [tl].
    assert (L := wc_loop W W_sorted W_good W_rooted W_overlap (fun x Hx => proj1 (W_wc x Hx)) t [] h E).
    change (prefix_wc [h] t []) with (prefix_wc (chain_of onet olen [] h) t []). rewrite (proj1 L). f_equal.
    replace t with (tl W) by (rewrite E; reflexivity). apply (eset_all direct_edge wcof (tl W) []). cbn [map app]. apply direct_nodup.
  Qed.
  Lemma all_runs : ind_prefix_table_deps rules = Ok (flat_map (fun x => map (fun c => (fst x, fst c)) (rev (anc onet olen W x))) (tl W)).
  Proof.
    unfold ind_prefix_table_deps. rewrite sort_ok. cbn [rbind]. destruct W_first as (h & Eh & Hh). rewrite Eh. cbn [rbind].
    destruct W_head as (h' & t & E & _). rewrite E in Hh. injection Hh as ->. rewrite E at 1. cbn [tl].
    assert (L := wc_loop W W_sorted W_good W_rooted W_overlap (fun x Hx => proj1 (W_wc x Hx)) t [] h E).
    change (prefix_all [h] t []) with (prefix_all (chain_of onet olen [] h) t []). rewrite (proj2 L). cbn [app]. f_equal. replace t with (tl W) by (rewrite E; reflexivity). reflexivity.
  Qed.
  Lemma bdd_runs SHIFT one : 0 < SHIFT -> SHIFT mod 2 = 0 -> one <> 0 -> exists ns, map (fun n => (nid n, nrule n)) ns = W /\ Forall (node_ok one) ns /\
    build_prefix_table_deps SHIFT one rules = Ok (map (fun n => (direct_edge (nid n, nrule n), nbdd n)) (tl ns)).
  Proof.
    intros Hs Hs2 Ho. unfold build_prefix_table_deps. rewrite sort_ok. cbn [rbind]. destruct W_first as (h & Eh & Hh). rewrite Eh. cbn [rbind].
    destruct (attach_all_ok SHIFT one Hs Hs2 Ho r W) as (ns & En & Mn & F).
    { intros x Hx. apply W_in, objects_rule in Hx. now apply Hok. }
    assert (Ea : attach SHIFT one W = Ok ns). { unfold attach. destruct W; [discriminate Hh|exact En]. }
    rewrite Ea. cbn [rbind]. exists ns. split; [exact Mn|]. split; [exact F|]. destruct ns as [|d t] eqn:Ens; [rewrite <- Mn in Hh; discriminate Hh|]. rewrite <- Ens in *. cbn [tl].
    set (o := fun n : node => (nid n, nrule n)) in *.
    assert (Anc : forall n, map o (anc nnet nlen ns n) = anc onet olen W (o n)).
    { intros n. unfold anc. rewrite <- Mn, <- map_rev. generalize (rev ns). induction l as [|y l IH]; cbn [map filter]; [reflexivity|].
      change (encb onet olen (o n) (o y)) with (encb nnet nlen n y). destruct (encb nnet nlen n y); cbn [map]; now rewrite IH. }
    assert (Sor : StronglySorted (bef nnet nlen) ns).
    { assert (S0 := W_sorted). rewrite <- Mn in S0. clear - S0. induction ns as [|y l IH]; [constructor|]. cbn [map] in S0. inversion S0 as [|? ? S1 F1]; subst.
      constructor; [auto|]. rewrite Forall_forall in F1. apply Forall_forall. intros z Hz. apply (F1 (o z)). now apply in_map. }
    assert (Go : Forall (gd nnet nlen) ns).
    { apply Forall_forall. intros y Hy. assert (G := W_good). rewrite Forall_forall in G. apply (G (o y)). rewrite <- Mn. now apply in_map. }
    assert (L := bdd_loop ns Sor Go). specialize (fun a b => L a b t [] d []). cbn [chain_of rev filter app] in L. change (chain_of nnet nlen [] d) with [d] in L. rewrite L; auto.
    - f_equal. transitivity (fold_left (fun r0 x => eset r0 (direct_edge (o x)) (nbdd x)) t []).
      + assert (X : forall x, nid (hd x (anc nnet nlen ns x)) = fst (hd (o x) (anc onet olen W (o x)))).
        { intros x. rewrite <- Anc. destruct (anc nnet nlen ns x); reflexivity. }
        apply fold_left_ext. intros a x. unfold direct_edge. now rewrite <- X.
      + rewrite Ens. cbn [tl]. apply (eset_all (fun x => direct_edge (o x)) nbdd t []). cbn [map app]. rewrite <- map_map. assert (X : map o t = tl W) by (rewrite <- Mn, Ens; reflexivity). rewrite X. apply direct_nodup.
    - intros D z x t' E. assert (E' : W = map o D ++ o z :: o x :: map o t') by (rewrite <- Mn, E, map_app; reflexivity).
      destruct (W_rooted _ _ _ _ E') as (c & Hc & Ec). change [o z] with (map o [z]) in Hc. rewrite <- map_app in Hc. apply in_map_iff in Hc as (y & <- & Hy). exists y. split; [exact Hy|exact Ec].
    - intros c x Hc Hx B. assert (Hc' : In (o c) W) by (rewrite <- Mn; now apply in_map). assert (Hx' : In (o x) W) by (rewrite <- Mn; now apply in_map).
      rewrite Forall_forall in F. destruct (F c Hc) as [Mc Ac], (F x Hx) as [Mx Ax]. destruct (mask_inter one Ho _ _ Mc Mx) as [Mi Oi].
      apply eq_true_iff_eq. rewrite (cudd_bool_on _ (proj1 Mi)). change (encb nnet nlen x c) with (encb onet olen (o x) (o c)). rewrite <- (W_ov (o c) (o x) Hc' Hx' B).
      split; intros (p & H); exists p; [apply Oi in H as [H1 H2]; split; [now apply Ac|now apply Ax]|destruct H as [H1 H2]; apply Oi; split; [now apply Ac|now apply Ax]].
  Qed.
End Table.
