(** The canonical form with match_redundancy=True decides what is sent (C25). *)
From Coq Require Import ZifyBool ZifyNat ZifyN.
From Verif Require Import SpecEager Merge MatchWcProofs ActionProofs ExecProofs RedundantProofs PerOutputProofs ActionSetProofs InstProofs MergeProofs SingleTableProofs Normalise NormaliseProofs EagerProofs.
From Coq Require Import Lia Permutation Sorted.
Local Open Scope string_scope.
Local Open Scope list_scope.
Local Open Scope Z_scope.
Local Opaque NB WC_FULLWC layout oxm_fields registry_init.

Notation OUT k := (("OUTPUT", VInt k) : action).
Notation SF f v := (("SET_FIELD", VSet f v) : action).
Definition good_set (a : action) : Prop :=
  exists s v, In s layout /\ a = SF (sl_name s) v /\ 0 <= v < 2 ^ sl_bits s /\ (sl_name s = "VLAN_VID" -> Z.testbit v 12 = true).

Lemma acts_header_app l r p : acts_header (l ++ r) p = acts_header r (acts_header l p).
Proof. unfold acts_header. apply fold_left_app. Qed.
Lemma sends_set f v t p : sends (SF f v :: t) p = sends t (act_header (SF f v) p).
Proof. reflexivity. Qed.
Lemma sends_out k t p : sends (OUT k :: t) p = (k, p) :: sends t p.
Proof. reflexivity. Qed.
Lemma sends_sets l r p : Forall good_set l -> sends (l ++ r) p = sends r (acts_header l p).
Proof.
  intros H. revert p. induction H as [|a l (s & v & _ & -> & _) Hl IH]; intros p; [reflexivity|]. cbn [app]. rewrite sends_set, IH. reflexivity.
Qed.

(** ** Extensionality *)
Definition heq (p q : packet) : Prop := forall i, p i = q i.
Lemma act_header_cong a p q : heq p q -> heq (act_header a p) (act_header a q).
Proof. intros H i. rewrite !act_header_rw. unfold apply_rw. now rewrite H. Qed.
Lemma acts_header_cong l : forall p q, heq p q -> heq (acts_header l p) (acts_header l q).
Proof. induction l as [|a l IH]; intros p q H; [exact H|]. apply (IH _ _ (act_header_cong a _ _ H)). Qed.
Definition ceq (a b : Z * packet) : Prop := fst a = fst b /\ heq (snd a) (snd b).
Lemma sends_cong l : forall p q, heq p q -> Forall2 ceq (sends l p) (sends l q).
Proof.
  induction l as [|a l IH]; intros p q H; [constructor|]. 
  assert (D : (exists k, a = OUT k) \/ (forall r, sends (a :: l) r = sends l (act_header a r))).
  { destruct a as [n v]. destruct (String.eqb_spec n "OUTPUT") as [->|N].
    - destruct v as [|k|f v|t b]; [right; reflexivity|left; eauto|right; reflexivity|right; reflexivity].
    - right. intros r. cbn [sends]. repeat (match goal with |- context [match ?x with _ => _ end] => is_var x; destruct x end; try reflexivity); now elim N. }
  destruct D as [(k & ->)|D]; [rewrite !sends_out; constructor; [split; [reflexivity|exact H]|auto]|]. rewrite !D. apply IH. now apply act_header_cong.
Qed.
Lemma ceq_copies x y : Forall2 ceq x y -> same_copies x y.
Proof.
  induction 1 as [|[k p] [k' p'] x y [H1 H2] H IH]; [intros k q; reflexivity|]. cbn [fst snd] in *. subst k'. intros k0 q. specialize (IH k0 q). split.
  - intros (q' & [E|Hi] & Hq); [injection E as <- <-; exists p'; split; [now left|intros i; now rewrite <- H2]|].
    destruct (proj1 IH (ex_intro _ q' (conj Hi Hq))) as (q2 & I2 & Q2). exists q2. split; [now right|auto].
  - intros (q' & [E|Hi] & Hq); [injection E as <- <-; exists p; split; [now left|intros i; now rewrite H2]|].
    destruct (proj2 IH (ex_intro _ q' (conj Hi Hq))) as (q2 & I2 & Q2). exists q2. split; [now right|auto].
Qed.
Lemma copies_refl x : same_copies x x. Proof. intros k q. reflexivity. Qed.
Lemma copies_sym x y : same_copies x y -> same_copies y x. Proof. intros H k q. symmetry. apply H. Qed.
Lemma copies_trans x y z : same_copies x y -> same_copies y z -> same_copies x z.
Proof. intros H1 H2 k q. rewrite (H1 k q). apply H2. Qed.
Lemma copies_app a b c d : same_copies a b -> same_copies c d -> same_copies (a ++ c) (b ++ d).
Proof.
  intros H1 H2 k q. assert (X : forall u v, has_copy (u ++ v) k q <-> has_copy u k q \/ has_copy v k q).
  { intros u v. unfold has_copy. split; [intros (q' & Hi & Hq); apply in_app_or in Hi as [Hi|Hi]; eauto|].
    intros [(q' & Hi & Hq)|(q' & Hi & Hq)]; exists q'; (split; [apply in_or_app; auto|auto]). }
  rewrite !X, (H1 k q), (H2 k q). reflexivity.
Qed.
Lemma copies_perm x y : Permutation x y -> same_copies x y.
Proof. intros P k q. unfold has_copy. split; intros (q' & Hi & Hq); exists q'; (split; [|auto]); [now rewrite <- P|now rewrite P]. Qed.

(** ** Trace equivalent lists send the same *)
Lemma sends_app l r p : Forall set_or_output l -> sends (l ++ r) p = sends l p ++ sends r (acts_header l p).
Proof.
  intros H. revert p. induction H as [|a l Ha Hl IH]; intros p; [reflexivity|]. cbn [app]. destruct Ha as [(k & ->)|(s & v & _ & -> & _)].
  - rewrite !sends_out, IH. reflexivity.
  - rewrite !sends_set, IH. reflexivity.
Qed.
Lemma swap_headers a b : depends a b = Ok false -> forall p, heq (act_header b (act_header a p)) (act_header a (act_header b p)).
Proof.
  intros H p i. assert (T : teq [a; b] [b; a]) by (apply (te_swap act_ind [] a b []); exact H).
  pose proof (teq_racts _ _ T none_rw i) as R. pose proof (acts_header_rw [a; b] p none_rw p (fun _ => eq_refl) i) as R1.
  pose proof (acts_header_rw [b; a] p none_rw p (fun _ => eq_refl) i) as R2. unfold acts_header in R1, R2. cbn [fold_left] in R1, R2.
  rewrite R1, R2. unfold apply_rw. now rewrite R.
Qed.
Lemma teq_sends l r : teq l r -> Forall set_or_output l -> forall p, same_copies (sends l p) (sends r p).
Proof.
  induction 1 as [l|l a b r H|l m r H1 IH1 H2 IH2]; intros Hs p; [apply copies_refl| |].
  - assert (Hl : Forall set_or_output l) by (rewrite Forall_forall in *; intros x Hx; apply Hs, in_or_app; now left).
    assert (Ha : set_or_output a) by (rewrite Forall_forall in Hs; apply Hs, in_or_app; right; now left).
    assert (Hb : set_or_output b) by (rewrite Forall_forall in Hs; apply Hs, in_or_app; right; right; now left).
    rewrite !sends_app by auto. apply copies_app; [apply copies_refl|]. set (q := acts_header l p).
    destruct Ha as [(k & ->)|(s & v & _ & -> & _)], Hb as [(k' & ->)|(s' & v' & _ & -> & _)].
    + rewrite !sends_out. apply copies_perm, perm_swap.
    + assert (E := indep_emit _ _ H eq_refl). discriminate E.
    + assert (E := indep_emit _ _ (depends_sym_ok _ _ _ H) eq_refl). discriminate E.
    + rewrite !sends_set. apply ceq_copies, sends_cong, swap_headers, H.
  - eapply copies_trans; [apply IH1; auto|]. apply IH2. rewrite Forall_forall in *. intros x Hx. apply Hs. now rewrite (ateq_perm _ _ H1).
Qed.
Lemma teq_header l r : teq l r -> forall p, heq (acts_header l p) (acts_header r p).
Proof.
  intros T p i. rewrite (acts_header_rw l p none_rw p (fun _ => eq_refl) i), (acts_header_rw r p none_rw p (fun _ => eq_refl) i).
  unfold apply_rw. now rewrite (teq_racts _ _ T).
Qed.

(** ** The port dict *)
Lemma out_ports_perm l r : Permutation l r -> Permutation (out_ports l) (out_ports r).
Proof.
  assert (E : forall l, out_ports l = flat_map (fun a => out_ports [a]) l).
  { clear. induction l as [|a l IH]; [reflexivity|]. cbn [flat_map]. rewrite <- IH. destruct a as [n v]. 
    assert (D : out_ports ((n, v) :: l) = out_ports [(n, v)] ++ out_ports l); [|exact D].
    cbn [out_ports]. repeat (match goal with |- context [match ?x with _ => _ end] => is_var x; destruct x end; try reflexivity). }
  intros P. rewrite (E l), (E r). now apply Permutation_flat_map.
Qed.
Definition pentry : Type := (Z * list action) * alist.
Definition entry_of (e : pentry) : Z * alist := (fst (fst e), snd e).
Definition good_entry (e : pentry) : Prop := al_ok (snd e) (snd (fst e) ++ [OUT (fst (fst e))]) /\ Forall good_set (snd (fst e)).
Definition copy_of (p : packet) (e : Z * list action) : Z * packet := (fst e, acts_header (snd e) p).
Lemma po_list_sends b : Forall set_or_output b -> NoDup (out_ports b) -> forall h cur res d cur', al_ok cur h -> Forall good_set h ->
  (forall k, In k (out_ports b) -> ~ In k (keys res)) -> po_list b res cur = Ok (d, cur') ->
  exists es, Permutation d (res ++ map entry_of es) /\ Forall good_entry es /\
    forall p, sends b (acts_header h p) = map (fun e : pentry => copy_of p (fst e)) es.
Proof.
  induction 1 as [|a b Ha Hb IH]; intros N h cur res d cur' Hc Hh Hf E; cbn [po_list] in E.
  - injection E as <- <-. exists []. cbn [map]. rewrite app_nil_r. repeat split; auto.
  - destruct Ha as [(k & ->)|Hs].
    + cbn [fst snd] in E. change (String.eqb "OUTPUT" "OUTPUT") with true in E. cbv iota in E. apply rbind_ok in E as (out & Eo & E).
      cbn [out_ports] in N, Hf. apply NoDup_cons_iff in N as [N1 N2].
      assert (F : ~ In k (keys res)) by (apply Hf; now left). pose proof (po_set_fresh res k out F) as P.
      destruct (IH N2 h cur (po_set res k out) d cur') as (es & P1 & G1 & S1); auto.
      { intros k' Hk' X. apply (Permutation_in k' (keys_perm _ _ P)) in X. destruct X as [<-|X]; [cbn [fst] in *; contradiction|]. apply (Hf k'); [now right|auto]. }
      exists (((k, h), out) :: es). split; [|split].
      * eapply Permutation_trans; [exact P1|]. cbn [map]. unfold entry_of at 2. cbn [fst snd]. eapply Permutation_trans; [apply Permutation_app_tail, P|]. cbn [app]. apply Permutation_middle.
      * constructor; auto. split; cbn [fst snd]; [|auto]. now apply (al_append_ok cur h).
      * intros p. rewrite sends_out, S1. reflexivity.
    + destruct Hs as (s & v & Is & -> & Hv). cbn [fst snd] in E. change (String.eqb "SET_FIELD" "OUTPUT") with false in E. change (String.eqb "SET_FIELD" "GROUP") with false in E.
      cbv iota in E. apply rbind_ok in E as (cur1 & Ec & E).
      destruct (IH N (h ++ [SF (sl_name s) v]) cur1 res d cur') as (es & P1 & G1 & S1); auto.
      { now apply (al_append_ok cur h). }
      { apply Forall_app. split; auto. constructor; [|constructor]. exists s, v. auto. }
      exists es. split; [auto|]. split; [auto|]. intros p. rewrite sends_set, <- S1, acts_header_app. reflexivity.
Qed.

(** ** One port *)
Definition field_of (a : action) : string := match snd a with VSet f _ => f | _ => "" end.
Definition dep_sets (f g : string) : bool :=
  match depends (SF f 0) (SF g 0) with Ok d => Bool.eqb d (String.eqb f g) | Err _ => true end.
Lemma dep_sets_all : forallb (fun f => forallb (dep_sets f) (map fst field_deps)) (map fst field_deps) = true.
Proof. vm_compute. reflexivity. Qed.
Lemma known_field f v : known (SF f v) = true -> In f (map fst field_deps).
Proof.
  intros H. unfold known in H. change (to_type (SF f v)) with (Ok (TSet f)) in H. cbn [rbind] in H. unfold action_dependancies in H.
  destruct (sassoc f field_deps) as [l|] eqn:E; [|discriminate]. eapply sassoc_in; eauto.
Qed.
Lemma depends_sets f v g w d : depends (SF f v) (SF g w) = Ok d -> d = String.eqb f g.
Proof.
  intros H. destruct (depends_known _ _ _ H) as [K1 K2]. apply known_field in K1, K2.
  pose proof dep_sets_all as A. rewrite forallb_forall in A. specialize (A f K1). rewrite forallb_forall in A. specialize (A g K2). unfold dep_sets in A.
  change (depends (SF f 0) (SF g 0)) with (depends (SF f v) (SF g w)) in A. rewrite H in A. now apply Bool.eqb_prop in A.
Qed.
Lemma dep_out_all : forallb (fun f => match depends (SF f 0) (OUT 0) with Ok d => d | Err _ => true end) (map fst field_deps) = true.
Proof. vm_compute. reflexivity. Qed.
Lemma depends_out f v k d : depends (SF f v) (OUT k) = Ok d -> d = true.
Proof.
  intros H. destruct (depends_known _ _ _ H) as [K1 _]. apply known_field in K1.
  pose proof dep_out_all as A. rewrite forallb_forall in A. specialize (A f K1). cbv beta in A.
  change (depends (SF f 0) (OUT 0)) with (depends (SF f v) (OUT k)) in A. now rewrite H in A.
Qed.
Lemma racts_set_some l : forall acc f w i s, In (SF f w) l -> slot_at i = Some s -> sl_name s = f -> racts l acc i <> None.
Proof.
  induction l as [|a l IH]; intros acc f w i s H Hs Hn; [destruct H|]. destruct H as [->|H]; cbn [racts].
  - rewrite racts_acc. destruct (racts l none_rw i); cbn [ov]; [discriminate|]. unfold ract. cbn [fst snd]. change (String.eqb "SET_FIELD" "SET_FIELD") with true. cbv iota.
    unfold rset. rewrite Hs, Hn, String.eqb_refl. cbn [andb mask_bit ov]. discriminate.
  - eapply IH; eauto.
Qed.
Lemma set_hidden l f v p : In f (map field_of l) -> Forall good_set l -> heq (acts_header l (act_header (SF f v) p)) (acts_header l p).
Proof.
  intros Hf Hl i. apply in_map_iff in Hf as (a & Ea & Hi). rewrite Forall_forall in Hl. destruct (Hl a Hi) as (s0 & w & _ & -> & _). cbn [field_of snd] in Ea. subst f.
  assert (E1 := acts_header_rw (SF (sl_name s0) v :: l) p none_rw p (fun _ => eq_refl) i). assert (E2 := acts_header_rw l p none_rw p (fun _ => eq_refl) i).
  change (acts_header (SF (sl_name s0) v :: l) p) with (acts_header l (act_header (SF (sl_name s0) v) p)) in E1. rewrite E1, E2. unfold apply_rw. cbn [racts]. rewrite racts_acc.
  destruct (racts l none_rw i) as [b|] eqn:R; cbn [ov]; [reflexivity|]. unfold ract. cbn [fst snd]. change (String.eqb "SET_FIELD" "SET_FIELD") with true. cbv iota.
  unfold rset. destruct (slot_at i) as [s|] eqn:Es; [|reflexivity]. destruct (String.eqb_spec (sl_name s) (sl_name s0)) as [En|]; [|reflexivity].
  exfalso. eapply racts_set_some; eauto.
Qed.
Lemma overwritten_sets l k f v b : Forall good_set l -> overwritten (SF f v) f (l ++ [OUT k]) = Ok b -> b = true <-> In f (map field_of l).
Proof.
  intros H. revert b. induction H as [|a l (s & w & _ & -> & _) Hl IH]; intros b E; cbn [app overwritten] in E.
  - change (set_field_of (OUT k)) with (@None string) in E. cbv iota in E. apply rbind_ok in E as (d & Ed & E). apply depends_out in Ed as ->. injection E as <-. split; [discriminate|intros []].
  - change (set_field_of (SF (sl_name s) w)) with (Some (sl_name s)) in E. cbv iota in E. cbn [map field_of snd].
    destruct (String.eqb_spec (sl_name s) f) as [<-|N]; [injection E as <-; split; [now left|reflexivity]|].
    apply rbind_ok in E as (d & Ed & E). apply depends_sets in Ed as ->. destruct (String.eqb_spec f (sl_name s)) as [->|_]; [now elim N|].
    rewrite (IH b E). split; [now right|intros [X|X]; [now elim N|auto]].
Qed.
Lemma drop_overwritten_sets (l : list action) k : Forall good_set l -> forall l', drop_overwritten (l ++ [OUT k]) = Ok l' ->
  exists h, l' = h ++ [OUT k] /\ Forall good_set h /\ NoDup (map field_of h) /\ incl (map field_of l) (map field_of h) /\ incl h l /\ forall p, heq (acts_header h p) (acts_header l p).
Proof.
  induction 1 as [|a l Ha Hl IH]; intros l' E; cbn [app drop_overwritten] in E.
  - cbn in E. injection E as <-. exists []. repeat split; auto; try (intros x []). constructor.
  - destruct Ha as (s & v & Is & -> & Hv). change (set_field_of (SF (sl_name s) v)) with (Some (sl_name s)) in E. cbv iota in E.
    apply rbind_ok in E as (g & Eg & E). apply rbind_ok in E as (t' & Et & E). injection E as <-. destruct (IH t' Et) as (h & -> & Gh & Nh & Ih & Jh & Hh). pose proof (overwritten_sets l k _ _ _ Hl Eg) as O. destruct g.
    + exists h. split; [reflexivity|]. split; [auto|]. split; [auto|]. split; [|split; [intros x Hx; right; auto|]].
      * intros x [<-|Hx]; [apply Ih, O; reflexivity|auto].
      * intros p i. rewrite Hh. symmetry. apply (set_hidden l _ v p (proj1 O eq_refl) Hl).
    + exists (SF (sl_name s) v :: h). split; [reflexivity|]. split; [constructor; [exists s, v; auto|auto]|]. split; [|split; [|split]].
      * cbn [map field_of snd]. constructor; [|auto]. intros X. apply in_map_iff in X as (a & E1 & E2). assert (Y : In (sl_name s) (map field_of l)) by (apply in_map_iff; exists a; auto). apply O in Y. discriminate Y.
      * cbn [map field_of snd]. intros x [<-|Hx]; [now left|right; auto].
      * intros x [<-|Hx]; [now left|right; auto].
      * intros p i. change (acts_header h (act_header (SF (sl_name s) v) p) i = acts_header l (act_header (SF (sl_name s) v) p) i). apply Hh.
Qed.
Lemma no_tags (l : list action) k : Forall good_set l -> drop_first_pair (l ++ [OUT k]) = None /\ drop_popped (l ++ [OUT k]) = (l ++ [OUT k], []).
Proof.
  induction 1 as [|a l (s & v & _ & -> & _) Hl [I1 I2]]; [split; reflexivity|]. cbn [app drop_first_pair drop_popped].
  change (push_of (SF (sl_name s) v)) with (@None tunnel). change (pop_of (SF (sl_name s) v)) with (@None tunnel). cbv iota. rewrite I1, I2. split; [reflexivity|].
  unfold sets_one_of. change (set_field_of (SF (sl_name s) v)) with (Some (sl_name s)). reflexivity.
Qed.
Lemma one_out (hh : list action) k (xs : list action) : Forall good_set hh -> teq (hh ++ [OUT k]) xs -> exists h1 : list action, xs = h1 ++ [OUT k] /\ Permutation hh h1.
Proof.
  intros H T. assert (P := ateq_perm _ _ T). assert (Hx : In (OUT k) xs) by (rewrite <- P; apply in_or_app; right; now left).
  destruct (in_split _ _ Hx) as (a & b & ->).
  assert (Q : Permutation hh (a ++ b)).
  { apply (Permutation_app_inv hh [] a b (OUT k)) in P. now rewrite app_nil_r in P. }
  assert (PL : plain_list (hh ++ [OUT k])).
  { clear -H. split; [rewrite forallb_app; apply andb_true_iff; split; [|reflexivity]; apply forallb_forall; intros x Hx; rewrite Forall_forall in H; destruct (H x Hx) as (s & v & _ & -> & _); reflexivity|].
    apply no_emit_outs; [|reflexivity]. apply forallb_forall. intros x Hx. rewrite Forall_forall in H. destruct (H x Hx) as (s & v & _ & -> & _). reflexivity. }
  pose proof (PerOutputProofs.teq_plain _ _ T PL) as [_ OL].
  assert (B : b = []); [|subst b; rewrite app_nil_r in Q; exists a; auto].
  assert (OL' : outs_last (OUT k :: b) = true) by (clear -OL; induction a as [|x a IH]; [exact OL|apply IH; eapply outs_last_tail; exact OL]).
  destruct b as [|x b]; [reflexivity|exfalso]. assert (X : In x hh) by (rewrite Q; apply in_or_app; right; now left). rewrite Forall_forall in H. destruct (H x X) as (s & v & _ & -> & _).
  cbn in OL'. discriminate OL'.
Qed.
Lemma ordpairs_sets h : Forall good_set h -> NoDup (map field_of h) -> Forall (fun a => known a = true) h -> ForallOrdPairs (Foata.ind dpb) h.
Proof.
  induction 1 as [|a h (s & v & _ & -> & _) Hh IH]; intros N K; [constructor|]. cbn [map] in N. apply NoDup_cons_iff in N as [N1 N2]. inversion K as [|x y K1 K2]; subst x y.
  constructor; [|now apply IH]. apply Forall_forall. intros b Hb. unfold Foata.ind. rewrite Forall_forall in Hh, K2. pose proof (K2 b Hb) as Kb. destruct (Hh b Hb) as (s' & v' & _ & -> & _).
  apply dpb_false. destruct (depends_total _ _ K1 Kb) as (d & Ed). rewrite Ed. f_equal. rewrite (depends_sets _ _ _ _ _ Ed). apply String.eqb_neq. intros E. apply N1. apply in_map_iff. exists (SF (sl_name s') v'). split; [cbn; auto|auto].
Qed.
Lemma sets_out_levels h k l : Forall good_set h -> NoDup (map field_of h) -> al_of (h ++ [OUT k]) = Ok l ->
  exists S0, al_iter l = S0 ++ [OUT k] /\ ssorted S0 /\ Permutation S0 h.
Proof.
  intros G N E. destruct h as [|a h0] eqn:Eh; [|rewrite <- Eh in *; assert (Ne : h <> []) by (rewrite Eh; discriminate)].
  { exists []. split; [|split; [constructor|auto]]. cbn in E. injection E as <-. reflexivity. }
  clear Eh a h0. assert (K : Forall (fun a => known a = true) h).
  { assert (X : exists l, al_of (h ++ [OUT k]) = Ok l) by eauto. apply al_of_success in X as [[X|X] _]; [rewrite app_length in X; destruct h; [now elim Ne|cbn in X; lia]|]. apply Forall_app in X. tauto. }
  apply al_of_ok in E as [_ R].
  assert (F : ActionProofs.foata (h ++ [OUT k]) = [h; [OUT k]]).
  { assert (NF : nfp dpb None [h; [OUT k]]).
    { cbn [nfp]. split; [auto|]. split; [now apply ordpairs_sets|]. split; [exact Logic.I|]. split; [discriminate|]. split; [repeat constructor|]. split; [|exact Logic.I].
      constructor; [|constructor]. destruct h as [|a h]; [now elim Ne|]. cbn [Foata.hits existsb]. apply orb_true_iff. left. assert (Ga : good_set a) by (inversion G; auto). destruct Ga as (s & v & _ & -> & _).
      unfold dpb. destruct (depends (SF (sl_name s) v) (OUT k)) as [[|]|] eqn:D; try reflexivity. apply depends_out in D. discriminate D. }
    assert (X := foata_rebuild dpb _ NF). cbn [List.concat app] in X. rewrite ?app_nil_r in X. exact X. }
  rewrite F in R. unfold lrel in R. inversion R as [|m v M L [M1 M2] R2]; subst. inversion R2 as [|m2 v2 M' L' [M3 M4] R3]; subst. inversion R3; subst.
  exists m. unfold al_iter. match goal with X : _ = action_levels l |- _ => rewrite <- X end. cbn [List.concat]. rewrite app_nil_r. apply Permutation_sym, Permutation_length_1_inv in M4. subst m2. auto.
Qed.
Record port_list (k : Z) (hh L S0 : list action) : Prop := mkPort {
  pl_eq : L = S0 ++ [OUT k];
  pl_sorted : ssorted S0;
  pl_sets : Forall good_set S0;
  pl_nodup : NoDup (map field_of S0);
  pl_header : forall p, heq (acts_header S0 p) (acts_header hh p) }.
Lemma acts_header_perm S0 h : Permutation S0 h -> Forall good_set h -> NoDup (map field_of h) -> forall p, heq (acts_header S0 p) (acts_header h p).
Proof.
  intros P G N p i. revert p i N G. induction P as [|a l r P IH|a b l|l m r P1 IH1 P2 IH2]; intros p i N G; [reflexivity| | |].
  - inversion G as [|x y G1 G2]; subst. cbn [map] in N. apply NoDup_cons_iff in N as [N1 N2]. apply (IH (act_header a p) i N2 G2).
  - apply (acts_header_cong l). intros j. inversion G as [|x y Ga G2]; subst. inversion G2 as [|x y Gb G3]; subst. destruct Ga as (s & v & _ & -> & _), Gb as (s' & v' & _ & -> & _).
    cbn [map field_of snd] in N. apply NoDup_cons_iff in N as [N1 _]. cbn [fold_left]. rewrite !act_header_rw. unfold apply_rw. rewrite !act_header_rw. unfold apply_rw.
    unfold ract. cbn [fst snd]. change (String.eqb "SET_FIELD" "SET_FIELD") with true. cbv iota. unfold rset. destruct (slot_at j) as [t|]; [|reflexivity].
    destruct (String.eqb_spec (sl_name t) (sl_name s)) as [E1|E1], (String.eqb_spec (sl_name t) (sl_name s')) as [E2|E2]; cbn [andb mask_bit]; try reflexivity.
    exfalso. apply N1. left. congruence.
  - assert (Gm : Forall good_set m) by (rewrite Forall_forall in *; intros x Hx; apply G; now rewrite <- P2).
    assert (Nm : NoDup (map field_of m)) by (eapply Permutation_NoDup; [apply Permutation_map, Permutation_sym, P2|auto]).
    rewrite (IH1 p i Nm Gm). now apply IH2.
Qed.
Lemma clean_port k hh v v' : al_ok v (hh ++ [OUT k]) -> Forall good_set hh -> remove_redundant v = Ok v' -> exists S0, port_list k hh (al_iter v') S0.
Proof.
  intros Hv Hh E. unfold remove_redundant in E. apply rbind_ok in E as (xs & Ex & E). pose proof (al_ok_iter _ _ Hv) as T.
  destruct (one_out _ _ _ Hh T) as (h1 & E1 & P1). rewrite E1 in Ex, T. assert (G1 : Forall good_set h1) by (eapply Permutation_Forall; eauto).
  destruct (no_tags h1 k G1) as [D1 D2]. unfold remove_redundant_list in Ex. cbn [drop_pairs] in Ex.
  assert (Ex' : (do l1 <- match drop_first_pair (h1 ++ [OUT k]) with Some l' => drop_pairs (List.length (h1 ++ [OUT k])) l' | None => Ok (h1 ++ [OUT k]) end; drop_overwritten (fst (drop_popped l1))) = Ok xs) by exact Ex.
  clear Ex. rewrite D1 in Ex'. cbn [rbind] in Ex'. rewrite D2 in Ex'. cbn [fst] in Ex'. rename Ex' into Ex.
  destruct (drop_overwritten_sets h1 k G1 xs Ex) as (h2 & -> & G2 & N2 & _ & _ & H2). destruct (sets_out_levels h2 k v' G2 N2 E) as (S0 & E3 & S1 & P3).
  exists S0. constructor; auto.
  - eapply Permutation_Forall; [apply Permutation_sym, P3|auto].
  - eapply Permutation_NoDup; [apply Permutation_map, Permutation_sym, P3|auto].
  - intros p i. rewrite (acts_header_perm S0 h2 P3 G2 N2 p i), H2. assert (Q := teq_header _ _ T p i). rewrite !acts_header_app in Q. cbn in Q. symmetry. exact Q.
Qed.

(** ** One rule *)
Definition port_ok (kL : Z * list action) : Prop := exists S0, snd kL = S0 ++ [OUT (fst kL)] /\ ssorted S0 /\ Forall good_set S0 /\ NoDup (map field_of S0).
Lemma po_clean_ports es : Forall good_entry es -> forall d d', Permutation d (map entry_of es) -> po_clean d = Ok d' ->
  Forall port_ok d' /\ forall p, same_copies (map (fun e : pentry => copy_of p (fst e)) es) (map (copy_of p) d').
Proof.
  intros G d. revert es G. induction d as [|[k v] d IH]; intros es G d' P E; cbn [po_clean] in E.
  - injection E as <-. apply Permutation_nil in P. destruct es; [|discriminate P]. split; [constructor|]. intros p. apply copies_refl.
  - apply rbind_ok in E as (v' & Ev & E). apply rbind_ok in E as (t' & Et & E). injection E as <-.
    assert (Hin : In (k, v) (map entry_of es)) by (rewrite <- P; now left). apply in_map_iff in Hin as (e & Ee & Hin). destruct (in_split _ _ Hin) as (e1 & e2 & ->).
    assert (G' : Forall good_entry (e1 ++ e2)) by (rewrite Forall_forall in *; intros x Hx; apply G; apply in_app_or in Hx as [Hx|Hx]; apply in_or_app; [now left|right; now right]).
    assert (Ge : good_entry e) by (rewrite Forall_forall in G; apply G; auto).
    assert (P' : Permutation d (map entry_of (e1 ++ e2))).
    { rewrite map_app. rewrite map_app in P. cbn [map] in P. rewrite Ee in P. now apply Permutation_cons_app_inv in P. }
    destruct (IH _ G' t' P' Et) as [I1 I2]. destruct e as [[k0 hh] v0]. unfold entry_of in Ee. cbn [fst snd] in Ee. injection Ee as -> ->. destruct Ge as [Ge1 Ge2]. cbn [fst snd] in Ge1, Ge2.
    destruct (clean_port k hh v v' Ge1 Ge2 Ev) as (S0 & [L1 L2 L3 L4 L5]). split.
    + constructor; [|auto]. exists S0. cbn [fst snd]. auto.
    + intros p. eapply copies_trans; [apply copies_perm, Permutation_map, Permutation_sym, Permutation_middle|]. cbn [map]. apply (copies_app [_] [_]); [|apply I2].
      apply ceq_copies. constructor; [|constructor]. split; [reflexivity|]. unfold copy_of. cbn [fst snd]. rewrite L1, acts_header_app. intros i. cbn. symmetry. apply L5.
Qed.
Lemma runs_exists r : inst_wf (inst (rcore r)) -> exists l, runs_actions r l.
Proof. intros [_ W]. eexists. exists (orig_order (write_actions (inst (rcore r)))). split; [now apply set_inv_list|reflexivity]. Qed.
Lemma runs_teq r l la : inst_wf (inst (rcore r)) -> runs_actions r l -> full_actions (inst (rcore r)) = Ok la -> teq l (al_iter la).
Proof.
  intros [Wa Ww] (o & Ho & ->) E. unfold full_actions in E. unfold inst_ok in Wa. pose proof (proj1 Ww) as Aw.
  destruct (al_add_ok _ _ _ _ _ Wa Aw E) as [A T]. eapply te_trans; [|apply (al_ok_iter _ _ A)]. eapply te_trans; [|exact T].
  apply ateq_app; [apply te_refl|]. eapply set_list_same; eauto.
Qed.
Lemma rule_ports r pp : inst_wf (inst (rcore r)) -> set_output_rule r -> rule_actions r = Ok pp ->
  po_sorted pp /\ Forall port_ok pp /\ forall l p, runs_actions r l -> same_copies (sends l p) (map (copy_of p) pp).
Proof.
  intros W S0 E. unfold rule_actions in E. apply rbind_ok in E as (la & El & E). split; [eapply per_output_sorted; eauto|].
  destruct (runs_exists r W) as (l0 & R0). pose proof (runs_teq r l0 la W R0 El) as T0. destruct (S0 l0 R0) as [F0 N0].
  unfold per_output_actions, per_output_actions_pt in E. apply rbind_ok in E as ([d0 pt] & E & E0). cbn [fst] in E0. injection E0 as ->.
  apply rbind_ok in E as ([d1 cur] & E1 & E). apply rbind_ok in E as (d2 & E2 & E). apply rbind_ok in E as (p2 & _ & E). injection E as -> _.
  assert (F1 : Forall set_or_output (al_iter la)) by (rewrite Forall_forall in *; intros x Hx; apply F0; now rewrite (ateq_perm _ _ T0)).
  assert (N1 : NoDup (out_ports (al_iter la))) by (eapply Permutation_NoDup; [apply out_ports_perm, (ateq_perm _ _ T0)|auto]).
  destruct (po_list_sends (al_iter la) F1 N1 [] al_empty [] d1 cur al_empty_ok) as (es & P & G & H); auto.
  cbn [app] in P. destruct (po_clean_ports es G d1 pp P E2) as [C1 C2]. split; [auto|]. intros l p R. pose proof (runs_teq r l la W R El) as T. destruct (S0 l R) as [F _].
  eapply copies_trans; [apply (teq_sends _ _ T F)|]. specialize (H p). cbn in H. rewrite H. apply C2.
Qed.

(** ** Fields of the header sent *)
Lemma racts_unset l i s : Forall good_set l -> slot_at i = Some s -> ~ In (sl_name s) (map field_of l) -> racts l none_rw i = None.
Proof.
  intros G Hs. induction G as [|a l (s0 & v & _ & -> & _) G IH]; intros N; [reflexivity|]. cbn [racts]. rewrite racts_acc, IH by (intros X; apply N; now right). cbn [ov].
  unfold ract. cbn [fst snd]. change (String.eqb "SET_FIELD" "SET_FIELD") with true. cbv iota. unfold rset. rewrite Hs.
  destruct (String.eqb_spec (sl_name s) (sl_name s0)) as [E|]; [|reflexivity]. exfalso. apply N. left. cbn. congruence.
Qed.
Lemma vid_same s v : (sl_name s = "VLAN_VID" -> Z.testbit v 12 = true) -> vid_value (sl_name s) v = v.
Proof.
  intros H. unfold vid_value. destruct (String.eqb_spec (sl_name s) "VLAN_VID") as [E|]; [|reflexivity]. change 0x1000 with (2 ^ 12). apply Z.bits_inj'. intros j Hj. rewrite Z.lor_spec, Z.pow2_bits_eqb by lia.
  destruct (Z.eqb_spec 12 j) as [<-|]; [rewrite (H E); reflexivity|reflexivity].
Qed.
Lemma header_set S0 s v p j : Forall good_set S0 -> NoDup (map field_of S0) -> In (SF (sl_name s) v) S0 -> In s layout -> 0 <= j < sl_bits s ->
  acts_header S0 p (sl_off s + j) = Z.testbit v j.
Proof.
  intros G N Hi Is Hj. assert (Hs : slot_at (sl_off s + j) = Some s) by (apply slot_at_some; [auto|lia]).
  rewrite (acts_header_rw S0 p none_rw p (fun _ => eq_refl)). unfold apply_rw.
  assert (E : racts S0 none_rw (sl_off s + j) = Some (Z.testbit v j)); [|now rewrite E].
  revert N. induction G as [|a l (s0 & w & I0 & -> & Hw & Vw) G IH]; intros N; [destruct Hi|]. cbn [map] in N. apply NoDup_cons_iff in N as [N1 N2]. cbn [racts]. rewrite racts_acc.
  destruct Hi as [Hi|Hi].
  - injection Hi as E1 E2. assert (s0 = s) as -> by (apply slot_name_inj; auto). subst w. rewrite (racts_unset l (sl_off s + j) s G Hs N1). cbn [ov].
    unfold ract. cbn [fst snd]. change (String.eqb "SET_FIELD" "SET_FIELD") with true. cbv iota. unfold rset. rewrite Hs, String.eqb_refl, vid_same by auto. cbn [andb mask_bit ov]. f_equal. f_equal. lia.
  - rewrite (IH Hi N2). reflexivity.
Qed.
Lemma header_unset S0 s p j : Forall good_set S0 -> ~ In (sl_name s) (map field_of S0) -> In s layout -> 0 <= j < sl_bits s -> acts_header S0 p (sl_off s + j) = p (sl_off s + j).
Proof.
  intros G N Is Hj. assert (Hs : slot_at (sl_off s + j) = Some s) by (apply slot_at_some; [auto|lia]).
  rewrite (acts_header_rw S0 p none_rw p (fun _ => eq_refl)). unfold apply_rw. now rewrite (racts_unset S0 _ s G Hs N).
Qed.

(** ** Removing the set fields that do nothing *)
Definition noopb (p : packet) (a : action) : bool := match snd a with VSet f v => holdsb p (f, v) | _ => false end.
Definition keep (p : packet) (kL : Z * list action) : Z * list action := (fst kL, filter (fun a => negb (noopb p a)) (snd kL)).
Lemma eager_keep ord pp p : (forall x l, In x (ord l) <-> In x l) -> Forall port_ok pp -> eager_value ord pp p = map (keep p) pp.
Proof.
  intros Ho G. unfold eager_value, strip. apply map_ext_in. intros [k L] Hin. unfold keep. cbn [fst snd]. f_equal. apply filter_ext_in. intros a Ha. f_equal.
  rewrite Forall_forall in G. destruct (G _ Hin) as (S0 & E & _ & GS & _). cbn [fst snd] in E. subst L.
  assert (D : a = OUT k \/ good_set a) by (apply in_app_or in Ha as [Ha|[<-|[]]]; [right; rewrite Forall_forall in GS; auto|now left]).
  destruct D as [-> | (s & v & _ & -> & _)]; [reflexivity|]. unfold noopb. cbn [snd in_comb]. apply eq_true_iff_eq. rewrite existsb_exists. split.
  - intros ([f w] & Hf & Eq). cbn [fst snd] in Eq. apply andb_true_iff in Eq as [E1 E2]. apply String.eqb_eq in E1. apply Z.eqb_eq in E2. subst f w. apply filter_In in Hf. tauto.
  - intros H. exists (sl_name s, v). cbn [fst snd]. rewrite String.eqb_refl, Z.eqb_refl. split; [|reflexivity]. apply filter_In. split; [|auto]. apply Ho. apply nodup_In.
    unfold set_pairs. apply in_flat_map. exists (k, S0 ++ [OUT k]). split; [auto|]. apply in_flat_map. exists (SF (sl_name s) v). split; [exact Ha|now left].
Qed.
Lemma holds_bits s v p : In s layout -> (holdsb p (sl_name s, v) = true <-> forall j, 0 <= j < sl_bits s -> p (sl_off s + j) = Z.testbit v j).
Proof.
  intros Is. rewrite holdsb_spec. unfold holds, item_accepts. cbn [fst snd]. split.
  - intros H j Hj. apply (H s Is eq_refl j Hj eq_refl).
  - intros H s' Is' En j Hj _. assert (s' = s) as -> by (apply slot_name_inj; auto). unfold field_bit. auto.
Qed.
Lemma noop_header a p : good_set a -> noopb p a = true -> heq (act_header a p) p.
Proof.
  intros (s & v & Is & -> & _ & Vv) H i. unfold noopb in H. cbn [snd] in H. assert (H' := proj1 (holds_bits s v p Is) H). rewrite act_header_rw. unfold apply_rw, ract. cbn [fst snd]. change (String.eqb "SET_FIELD" "SET_FIELD") with true. cbv iota.
  unfold rset. destruct (slot_at i) as [t|] eqn:Et; [|reflexivity]. destruct (String.eqb_spec (sl_name t) (sl_name s)) as [E|]; [|reflexivity]. cbn [andb mask_bit].
  apply slot_at_in in Et as [It Ht]. assert (t = s) as -> by (apply slot_name_inj; auto). rewrite vid_same by auto. rewrite <- H' by lia. f_equal. lia.
Qed.
Lemma keep_header S0 p : Forall good_set S0 -> NoDup (map field_of S0) -> heq (acts_header (filter (fun a => negb (noopb p a)) S0) p) (acts_header S0 p).
Proof.
  intros G N i.
  assert (X : forall q, (forall a, In a S0 -> noopb q a = noopb p a) -> heq (acts_header (filter (fun a => negb (noopb p a)) S0) q) (acts_header S0 q)); [|apply X; auto].
  clear i. induction G as [|a l Ga G IH]; intros q Hq i; [reflexivity|]. cbn [map] in N. apply NoDup_cons_iff in N as [N1 N2]. cbn [filter].
  assert (Hn : forall b, In b l -> noopb (act_header a q) b = noopb p b).
  { intros b Hb. rewrite <- (Hq b (or_intror Hb)). rewrite Forall_forall in G. destruct (G b Hb) as (s & v & Is & -> & _), Ga as (s0 & v0 & I0 & -> & _). unfold noopb. cbn [snd].
    apply eq_true_iff_eq. rewrite !(holds_bits s v _ Is). assert (Ne : sl_name s <> sl_name s0) by (intros E; apply N1; apply in_map_iff; exists (SF (sl_name s) v); split; [exact E|auto]).
    assert (Y : forall j, 0 <= j < sl_bits s -> act_header (SF (sl_name s0) v0) q (sl_off s + j) = q (sl_off s + j)).
    { intros j Hj. rewrite act_header_rw. unfold apply_rw, ract. cbn [fst snd]. change (String.eqb "SET_FIELD" "SET_FIELD") with true. cbv iota. unfold rset.
      rewrite (slot_at_some (sl_off s + j) s Is) by lia. destruct (String.eqb_spec (sl_name s) (sl_name s0)); [contradiction|reflexivity]. }
    split; intros H j Hj; [rewrite <- Y by auto; auto|rewrite Y by auto; auto]. }
  destruct (noopb p a) eqn:Ea; cbn [negb].
  - rewrite (IH N2 q (fun b Hb => Hq b (or_intror Hb)) i). change (acts_header (a :: l) q) with (acts_header l (act_header a q)). symmetry. apply acts_header_cong. apply noop_header; [auto|]. rewrite Hq; [auto|now left].
  - change (acts_header (a :: l) q) with (acts_header l (act_header a q)). change (acts_header (a :: filter (fun a0 => negb (noopb p a0)) l) q) with (acts_header (filter (fun a0 => negb (noopb p a0)) l) (act_header a q)). apply IH; auto.
Qed.
Lemma fits_eq v w n : 0 <= v < 2 ^ n -> 0 <= w < 2 ^ n -> (forall j, 0 <= j < n -> Z.testbit v j = Z.testbit w j) -> v = w.
Proof.
  intros Hv Hw H. assert (Hn : 0 <= n) by (destruct (Z_lt_ge_dec n 0); [rewrite Z.pow_neg_r in Hv by auto; lia|lia]).
  apply Z.bits_inj'. intros j Hj. destruct (Z_lt_ge_dec j n); [apply H; lia|].
  assert (X : forall u, 0 <= u < 2 ^ n -> Z.testbit u j = false). { intros u Hu. rewrite <- (Z.mod_small u (2 ^ n)) by auto. apply Z.mod_pow2_bits_high. lia. }
  now rewrite !X.
Qed.
Lemma keep_incl S1 S2 p : Forall good_set S1 -> Forall good_set S2 -> NoDup (map field_of S1) -> NoDup (map field_of S2) ->
  heq (acts_header S1 p) (acts_header S2 p) -> forall a, In a (filter (fun a => negb (noopb p a)) S1) -> In a (filter (fun a => negb (noopb p a)) S2).
Proof.
  intros G1 G2 N1 N2 H a Ha. apply filter_In in Ha as [Ha Hn]. apply filter_In. split; [|auto]. pose proof G1 as G1'. rewrite Forall_forall in G1'. destruct (G1' a Ha) as (s & v & Is & -> & Hv & _).
  destruct (in_dec string_dec (sl_name s) (map field_of S2)) as [Hi|Hi].
  - apply in_map_iff in Hi as (b & Eb & Hb). pose proof G2 as G2'. rewrite Forall_forall in G2'. destruct (G2' b Hb) as (s' & w & Is' & -> & Hw & _). cbn [field_of snd] in Eb.
    assert (s' = s) as -> by (apply slot_name_inj; auto). assert (v = w) as ->; [|auto]. apply (fits_eq v w (sl_bits s) Hv Hw). intros j Hj.
    rewrite <- (header_set S1 s v p j G1 N1 Ha Is Hj), <- (header_set S2 s w p j G2 N2 Hb Is Hj). apply H.
  - exfalso. assert (X : noopb p (SF (sl_name s) v) = true); [|rewrite X in Hn; discriminate Hn]. unfold noopb. cbn [snd]. apply (holds_bits s v p Is). intros j Hj.
    rewrite <- (header_unset S2 s p j G2 Hi Is Hj), <- H. now apply header_set.
Qed.
Lemma ssorted_filter (f : action -> bool) l : ssorted l -> ssorted (filter f l).
Proof.
  induction 1 as [|a l H IH F]; [constructor|]. cbn [filter]. destruct (f a); [|auto]. constructor; [auto|]. rewrite Forall_forall in *. intros x Hx. apply filter_In in Hx. apply F. tauto.
Qed.
Lemma nodup_sets S0 : NoDup (map field_of S0) -> forall f, NoDup (filter f S0).
Proof. intros N f. apply NoDup_filter. eapply NoDup_map_inv; eauto. Qed.
Lemma keep_same k S1 S2 p : ssorted S1 -> ssorted S2 -> Forall good_set S1 -> Forall good_set S2 -> NoDup (map field_of S1) -> NoDup (map field_of S2) ->
  heq (acts_header S1 p) (acts_header S2 p) -> keep p (k, S1 ++ [OUT k]) = keep p (k, S2 ++ [OUT k]).
Proof.
  intros T1 T2 G1 G2 N1 N2 H. unfold keep. cbn [fst snd]. f_equal. rewrite !filter_app. f_equal. apply ssorted_perm_eq; [now apply ssorted_filter|now apply ssorted_filter|].
  apply NoDup_Permutation; [now apply nodup_sets|now apply nodup_sets|]. intros a. split; apply keep_incl; auto. intros i. symmetry. apply H.
Qed.
Lemma keep_copy k L p : port_ok (k, L) -> heq (acts_header (snd (keep p (k, L))) p) (acts_header L p).
Proof.
  intros (S0 & E & _ & G & N) i. cbn [fst snd keep] in *. subst L. rewrite filter_app, !acts_header_app. apply (acts_header_cong (filter (fun a => negb (noopb p a)) [OUT k]) _ _ (keep_header S0 p G N)).
Qed.
Lemma keys_keep p pp : keys (map (keep p) pp) = keys pp.
Proof. unfold keys. rewrite map_map. reflexivity. Qed.
Lemma ports_decide pp1 pp2 p : po_sorted pp1 -> po_sorted pp2 -> Forall port_ok pp1 -> Forall port_ok pp2 ->
  (map (keep p) pp1 = map (keep p) pp2 <-> same_copies (map (copy_of p) pp1) (map (copy_of p) pp2)).
Proof.
  intros T1 T2 G1 G2. split.
  - intros E.
    assert (X : forall pp, Forall port_ok pp -> same_copies (map (copy_of p) pp) (map (copy_of p) (map (keep p) pp))).
    { clear. intros pp G. apply ceq_copies. induction G as [|[k L] pp Gk G IH]; [constructor|]. cbn [map]. constructor; [|auto]. split; [reflexivity|]. intros i. symmetry. now apply keep_copy. }
    eapply copies_trans; [apply X; auto|]. rewrite E. apply copies_sym, X. auto.
  - intros H. apply po_sorted_eq; [unfold po_sorted; now rewrite keys_keep|unfold po_sorted; now rewrite keys_keep|].
    assert (X : forall pa pb, Forall port_ok pa -> Forall port_ok pb -> same_copies (map (copy_of p) pa) (map (copy_of p) pb) -> forall kv, In kv (map (keep p) pa) -> In kv (map (keep p) pb)).
    { clear. intros pa pb Ga Gb H kv Hk. apply in_map_iff in Hk as ([k L] & <- & Hin). rewrite Forall_forall in Ga, Gb. destruct (Ga _ Hin) as (S1 & E1 & T1 & G1 & N1). cbn [fst snd] in E1. subst L.
      assert (C : has_copy (map (copy_of p) pa) k (acts_header (S1 ++ [OUT k]) p)) by (exists (acts_header (S1 ++ [OUT k]) p); split; [apply in_map_iff; exists (k, S1 ++ [OUT k]); auto|auto]).
      apply H in C as (q & Hq & Eq). apply in_map_iff in Hq as ([k' L'] & Ec & Hin'). unfold copy_of in Ec. cbn [fst snd] in Ec. injection Ec as -> <-.
      destruct (Gb _ Hin') as (S2 & E2 & T2 & G2 & N2). cbn [fst snd] in E2. subst L'. apply in_map_iff. exists (k, S2 ++ [OUT k]). split; [|auto]. symmetry. apply keep_same; auto.
      intros i. specialize (Eq i). rewrite !acts_header_app in Eq. cbn in Eq. auto. }
    intros kv. split; apply X; auto. now apply copies_sym.
Qed.

(** ** Tables *)
Definition mr_perm (ord : list (string * Z) -> list (string * Z)) : Prop := forall x l, In x (ord l) <-> In x l.
Lemma naive_err_any SHIFT ord rules acts r e : In r rules -> rule_actions r = Err e -> is_ok (normalise_naive SHIFT (Some ord) acts rules) = false.
Proof.
  intros Hin E. rewrite naive_eq. destruct (one_table rules); [|reflexivity]. unfold all_entries. generalize (@nil (Z * po_value)).
  induction rules as [|x rules IH]; intros acc; [destruct Hin|]. cbn [rfold]. destruct Hin as [->|Hin].
  - cbn [rule_entries]. unfold normalise_set_fields. rewrite E. reflexivity.
  - destruct (rule_entries (Some ord) x) as [es|]; cbn [rbind]; [now apply IH|reflexivity].
Qed.
(** What the canonical form says for a packet, for any rules. *)
Definition eager_prescribes ord (rules : list rule) (p : packet) (o : option po_value) : Prop :=
  (first_match rules p None /\ o = None) \/
  (exists r pp, first_match rules p (Some r) /\ rule_actions r = Ok pp /\ o = Some (eager_value ord pp p)).
Lemma eager_table ord reg rules : rules_ok reg rules -> (forall r, In r rules -> is_ok (rule_actions r) = true) ->
  exists es, all_entries (Some ord) rules = Ok es /\ (forall e, In e es -> entry_ok (fst e)) /\
  forall p, eager_prescribes ord rules p (first_entry es p).
Proof.
  intros H A. unfold all_entries.
  assert (P : forall rules acc, rules_ok reg rules -> (forall r, In r rules -> is_ok (rule_actions r) = true) ->
    exists es, rfold (fun es r => do e <- rule_entries (Some ord) r; Ok (es ++ e)) rules acc = Ok (acc ++ es) /\
      (forall e, In e es -> entry_ok (fst e)) /\ forall p, eager_prescribes ord rules p (first_entry es p)).
  2:{ destruct (P rules [] H A) as (es & E & Q). exists es. split; [exact E|exact Q]. }
  clear H A rules. induction rules as [|r rules IH]; intros acc H A.
  - exists []. rewrite app_nil_r. split; [reflexivity|]. split; [intros e []|]. intros p. left. split; [constructor|reflexivity].
  - assert (Ar := A r (or_introl eq_refl)). destruct (rule_actions r) as [pp|e] eqn:Ep; [|discriminate Ar].
    destruct (eager_entries ord reg r pp) as (er & Er & _ & Wr & Sr); [apply H; now left|exact Ep|].
    destruct (IH (acc ++ er)) as (es & E & W & Q); [intros x Hx; apply H; now right|intros x Hx; apply A; now right|].
    exists (er ++ es). cbn [rfold]. rewrite Er. cbn [rbind]. split; [rewrite E, <- app_assoc; reflexivity|].
    split; [intros e He; apply in_app_iff in He as [He|He]; auto|].
    intros p. rewrite first_entry_app. destruct (rule_wc_ok reg r) as (w & _ & _ & Aw); [apply H; now left|].
    destruct (Sr p) as [S1 S2]. destruct (acceptsb w p) eqn:Ew.
    + apply Aw in Ew. rewrite (S1 Ew). cbn [orelse]. right. exists r, pp. split; [now constructor|]. split; auto.
    + assert (Nr : ~ rule_accepts r p) by (intros Hr; apply Aw in Hr; congruence). rewrite (S2 Nr). cbn [orelse].
      destruct (Q p) as [[Q1 Q2]|(x & d' & Q1 & Q2 & Q3)].
      * left. split; [now constructor|exact Q2].
      * right. exists x, d'. split; [now constructor|]. split; auto.
Qed.
Lemma eager_prescribes_unique ord rules p o1 o2 : eager_prescribes ord rules p o1 -> eager_prescribes ord rules p o2 -> o1 = o2.
Proof.
  intros [[H1 ->]|(r1 & d1 & H1 & A1 & ->)] [[H2 ->]|(r2 & d2 & H2 & A2 & ->)]; assert (E := first_match_unique _ _ _ _ H1 H2); congruence.
Qed.
Lemma eager_runs SHIFT ord reg rules acts : 0 < SHIFT -> SHIFT mod 2 = 0 -> rules_ok reg rules -> (forall r, In r rules -> is_ok (rule_actions r) = true) ->
  one_table rules = true -> NoDup acts ->
  exists acts' b f, normalise_naive SHIFT (Some ord) acts rules = Ok (acts', b) /\ (exists ext, acts' = acts ++ ext) /\ NoDup acts' /\
    NormaliseProofs.sem acts' b f /\ forall p, eager_prescribes ord rules p (f p).
Proof.
  intros Hs He H A T N. destruct (eager_table ord reg rules H A) as (es & E & W & Q).
  destruct (normalise_naive SHIFT (Some ord) acts rules) as [[acts' b]|e] eqn:En.
  2:{ rewrite naive_eq, T, E in En. discriminate En. }
  destruct (naive_sem SHIFT Hs He (Some ord) _ _ _ _ _ E W N En) as (X & N' & S'). exists acts', b, (first_entry es).
  split; [reflexivity|]. split; [exact X|]. split; [auto|]. split; auto.
Qed.
Lemma eager_equal_iff SHIFT reg reg2 ordA ordB A B acts a1 ba a2 bb : 0 < SHIFT -> SHIFT mod 2 = 0 -> rules_ok reg A -> rules_ok reg2 B -> NoDup acts ->
  normalise_naive SHIFT (Some ordA) acts A = Ok (a1, ba) -> normalise_naive SHIFT (Some ordB) a1 B = Ok (a2, bb) ->
  (check_equal_exact ba bb = true <-> forall p x y, eager_prescribes ordA A p x -> eager_prescribes ordB B p y -> x = y).
Proof.
  intros Hs He HA HB N EA EB.
  assert (AA : forall r, In r A -> is_ok (rule_actions r) = true).
  { intros r Hr. destruct (rule_actions r) as [d|e] eqn:E; [reflexivity|]. assert (X := naive_err_any SHIFT ordA A acts r e Hr E). rewrite EA in X. discriminate X. }
  assert (AB : forall r, In r B -> is_ok (rule_actions r) = true).
  { intros r Hr. destruct (rule_actions r) as [d|e] eqn:E; [reflexivity|]. assert (X := naive_err_any SHIFT ordB B a1 r e Hr E). rewrite EB in X. discriminate X. }
  destruct (eager_table ordA reg A HA AA) as (ea & Ea & Wa & Qa). destruct (eager_table ordB reg2 B HB AB) as (eb & Eb & Wb & Qb).
  destruct (naive_sem SHIFT Hs He (Some ordA) _ _ _ _ _ Ea Wa N EA) as (_ & N1 & SA).
  destruct (naive_sem SHIFT Hs He (Some ordB) _ _ _ _ _ Eb Wb N1 EB) as ([ext ->] & N2 & SB).
  apply sem_ext with (ext := ext) in SA. unfold check_equal_exact. destruct add_eq_dec as [->|NE].
  - split; [intros _|reflexivity]. intros p x y X Y. rewrite (eager_prescribes_unique _ _ _ _ _ X (Qa p)), (eager_prescribes_unique _ _ _ _ _ Y (Qb p)).
    destruct SA as [_ SA], SB as [_ SB]. specialize (SA p). rewrite SB in SA.
    injection SA as SA. destruct (first_entry eb p), (first_entry ea p); cbn in SA; congruence.
  - split; [discriminate|]. intros H. elim NE. apply (sem_unique (a1 ++ ext) ba bb (first_entry ea)); auto.
    destruct SB as [S1 S2]. split; [auto|]. intros p. rewrite S2. do 2 f_equal. symmetry. apply (H p); auto.
Qed.
Definition set_output_table (rules : list rule) : Prop := forall r, In r rules -> inst_wf (inst (rcore r)) /\ set_output_rule r.
Lemma table_ports SHIFT ord acts rules st : set_output_table rules -> normalise_naive SHIFT (Some ord) acts rules = Ok st ->
  forall r, In r rules -> exists pp, rule_actions r = Ok pp /\ Forall port_ok pp.
Proof.
  intros T E r Hr. destruct (T r Hr) as [Wf S]. destruct (rule_actions r) as [pp|e] eqn:Ea.
  - exists pp. split; [reflexivity|]. apply (rule_ports r pp Wf S Ea).
  - assert (X := naive_err_any SHIFT ord rules acts r e Hr Ea). rewrite E in X. discriminate X.
Qed.
Lemma eager_decides SHIFT reg reg2 ordA ordB A B acts a1 ba a2 bb : 0 < SHIFT -> SHIFT mod 2 = 0 -> mr_perm ordA -> mr_perm ordB ->
  rules_ok reg A -> rules_ok reg2 B -> set_output_table A -> set_output_table B -> NoDup acts ->
  normalise_naive SHIFT (Some ordA) acts A = Ok (a1, ba) -> normalise_naive SHIFT (Some ordB) a1 B = Ok (a2, bb) ->
  (check_equal_exact ba bb = true <-> forall p x y, table_sends A p x -> table_sends B p y -> same_sent x y).
Proof.
  intros Hs He OA OB HA HB TA TB N EA EB. rewrite (eager_equal_iff SHIFT reg reg2 ordA ordB A B acts a1 ba a2 bb Hs He HA HB N EA EB).
  assert (PA := table_ports _ _ _ _ _ TA EA). assert (PB := table_ports _ _ _ _ _ TB EB).
  assert (D : forall p, (forall x y, eager_prescribes ordA A p x -> eager_prescribes ordB B p y -> x = y) <-> forall x y, table_sends A p x -> table_sends B p y -> same_sent x y).
  2:{ split; intros H p; apply D, H. }
  intros p. destruct (first_match_total reg A p HA) as [oa F1], (first_match_total reg2 B p HB) as [ob F2]. destruct oa as [ra|], ob as [rb|].
  - destruct (first_match_in _ _ _ F1) as [Ia _], (first_match_in _ _ _ F2) as [Ib _].
    destruct (TA ra Ia) as [Wfa S1], (TB rb Ib) as [Wfb S2]. destruct (PA ra Ia) as (pa & Pa & _), (PB rb Ib) as (pb & Pb & _).
    destruct (rule_ports ra pa Wfa S1 Pa) as (Sa & Ga & Ca), (rule_ports rb pb Wfb S2 Pb) as (Sb & Gb & Cb).
    assert (PD := ports_decide pa pb p Sa Sb Ga Gb). split.
    + intros H. assert (E := H _ _ (or_intror (ex_intro _ ra (ex_intro _ pa (conj F1 (conj Pa eq_refl))))) (or_intror (ex_intro _ rb (ex_intro _ pb (conj F2 (conj Pb eq_refl)))))).
      injection E as E. rewrite (eager_keep ordA pa p OA Ga), (eager_keep ordB pb p OB Gb) in E. apply PD in E. intros x y X Y.
      destruct X as [[G _]|(r & l & G & R & ->)]; [assert (Z0 := first_match_unique _ _ _ _ F1 G); discriminate Z0|].
      destruct Y as [[G' _]|(r' & l' & G' & R' & ->)]; [assert (Z0 := first_match_unique _ _ _ _ F2 G'); discriminate Z0|].
      assert (Z0 := first_match_unique _ _ _ _ F1 G). injection Z0 as <-. assert (Z1 := first_match_unique _ _ _ _ F2 G'). injection Z1 as <-.
      cbn [same_sent]. intros k q. rewrite (Ca l p R k q), (E k q). symmetry. apply (Cb l' p R').
    + intros H x y X Y. 
      destruct X as [[G _]|(r & l & G & R & ->)]; [assert (Z0 := first_match_unique _ _ _ _ F1 G); discriminate Z0|].
      destruct Y as [[G' _]|(r' & l' & G' & R' & ->)]; [assert (Z0 := first_match_unique _ _ _ _ F2 G'); discriminate Z0|].
      assert (Z0 := first_match_unique _ _ _ _ F1 G). injection Z0 as <-. assert (Z1 := first_match_unique _ _ _ _ F2 G'). injection Z1 as <-.
      rewrite Pa in R. injection R as <-. rewrite Pb in R'. injection R' as <-.
      f_equal. rewrite (eager_keep ordA pa p OA Ga), (eager_keep ordB pb p OB Gb). apply PD. destruct (runs_exists ra Wfa) as [l Hl], (runs_exists rb Wfb) as [l' Hl'].
      assert (Q := H (Some (sends l p)) (Some (sends l' p))). cbn [same_sent] in Q. intros k q.
      rewrite <- (Ca l p Hl k q), <- (Cb l' p Hl' k q). apply Q; right; [exists ra, l|exists rb, l']; auto.
  - destruct (first_match_in _ _ _ F1) as [Ia _]. destruct (TA ra Ia) as [Wf S]. destruct (PA ra Ia) as (pa & Pa & _). split; intros H.
    + assert (E := H (Some (eager_value ordA pa p)) None). discriminate E; [right; exists ra, pa; auto|left; auto].
    + destruct (runs_exists ra Wf) as [l Hl]. destruct (H (Some (sends l p)) None); [right; exists ra, l; auto|left; auto].
  - destruct (first_match_in _ _ _ F2) as [Ib _]. destruct (TB rb Ib) as [Wf S]. destruct (PB rb Ib) as (pb & Pb & _). split; intros H.
    + assert (E := H None (Some (eager_value ordB pb p))). discriminate E; [left; auto|right; exists rb, pb; auto].
    + destruct (runs_exists rb Wf) as [l Hl]. destruct (H None (Some (sends l p))); [left; auto|right; exists rb, l; auto].
  - split; intros _ x y X Y.
    + destruct X as [[_ ->]|(r & l & G & _)]; [|assert (Z0 := first_match_unique _ _ _ _ F1 G); discriminate Z0].
      destruct Y as [[_ ->]|(r & l & G & _)]; [exact Logic.I|assert (Z0 := first_match_unique _ _ _ _ F2 G); discriminate Z0].
    + destruct X as [[_ ->]|(r & l & G & _)]; [|assert (Z0 := first_match_unique _ _ _ _ F1 G); discriminate Z0].
      destruct Y as [[_ ->]|(r & l & G & _)]; [reflexivity|assert (Z0 := first_match_unique _ _ _ _ F2 G); discriminate Z0].
Qed.
