(** Theorems for C95: drawing a ruleset with its compressed groups. *)
From Coq Require Import QArith.
From Coq Require Import Lia Permutation Sorted ZifyBool ZifyNat.
From Verif Require Import SpecBdd Deps Normalise Compress SpecLayout LayoutProofs LayoutRulesProofs PropLayout LayoutCompress.
From Verif Require Import MatchProofs DepsProofs TreeProofs GroupProofs SelectProofs FormatProofs PropMerge PropDepsMulti DepsInd SimilarProofs SpecLayoutCompress PropCompress.
Local Open Scope list_scope.
Local Open Scope nat_scope.
Local Opaque NB WC_FULLWC layout oxm_fields registry_init.

Lemma nin_in x l : nin x l = true <-> In x l.
Proof. unfold nin. rewrite existsb_exists. split; [intros (y & H & E); apply Nat.eqb_eq in E; now subst|intros H; exists x; split; [exact H|apply Nat.eqb_refl]]. Qed.
Lemma nin_not x l : nin x l = false <-> ~ In x l.
Proof. rewrite <- nin_in. destruct (nin x l); intuition congruence. Qed.

(** *** The labelling loop *)
Definition keyed_by (d : gdict) (x : nat) : Prop := In x (map fst d).
Lemma gget_key d x : keyed_by d x -> exists l, gget d x = Ok l.
Proof.
  unfold keyed_by. induction d as [|[k v] d IH]; cbn [map fst In gget]; [tauto|]. destruct (Nat.eqb_spec k x) as [E|E]; [eauto|]. intros [H|H]; [congruence|auto].
Qed.
Lemma gget_in (d : gdict) g l : NoDup (map fst d) -> In (g, l) d -> gget d g = Ok l.
Proof.
  induction d as [|[k v] d IH]; cbn [map fst In gget]; [tauto|]. intros N. inversion N as [|? ? N1 N2]. subst. intros [[= -> ->]|H]; [now rewrite Nat.eqb_refl|].
  destruct (Nat.eqb_spec k g) as [->|E]; [|auto]. elim N1. apply in_map_iff. exists (g, l). auto.
Qed.
Lemma gdel_in (d : gdict) x g l : In (g, l) (gdel d x) <-> In (g, l) d /\ g <> x.
Proof. unfold gdel. rewrite filter_In. cbn [fst]. destruct (Nat.eqb_spec g x); cbn [negb]; intuition congruence. Qed.
Lemma gdel_nodup (d : gdict) x : NoDup (map fst d) -> NoDup (map fst (gdel d x)).
Proof.
  unfold gdel. induction d as [|[k v] d IH]; cbn [map fst filter]; [constructor|]. intros N. inversion N as [|? ? N1 N2]. subst. destruct (negb (k =? x)); [|auto]. cbn [map fst]. constructor; [|auto].
  intros H. apply N1. apply in_map_iff in H as ([k' v'] & E & H). cbn [fst] in E. subst k'. apply filter_In in H as [H _]. apply in_map_iff. exists (k, v'). auto.
Qed.
Lemma lremove_err x l : ~ In x l -> lremove x l = Err ValueError.
Proof. induction l as [|y l IH]; cbn [lremove In]; [reflexivity|]. intros H. destruct (Nat.eqb_spec x y); [subst; tauto|]. rewrite IH by tauto. reflexivity. Qed.
Lemma label_cons nodes i l reach mr mg : rfold (label_rule nodes) (i :: l) (reach, mr, mg) =
  if nin i nodes then rfold (label_rule nodes) l (reach ++ [i], mr, mg)
  else do mr <- lremove i mr; do _g <- gget mg i; rfold (label_rule nodes) l (reach, mr, gdel mg i).
Proof. cbn [rfold]. cbv beta iota delta [label_rule]. destruct (nin i nodes); cbn [rbind]; [reflexivity|]. destruct (lremove i mr); cbn [rbind]; [|reflexivity]. now destruct (gget mg i). Qed.
Lemma label_good nodes : forall l (reach mr : list nat) (mg : gdict), NoDup l -> NoDup mr -> NoDup (map fst mg) ->
  (forall i, In i l -> ~ In i nodes -> In i mr /\ keyed_by mg i) ->
  exists mr' (mg' : gdict), rfold (label_rule nodes) l (reach, mr, mg) = Ok (reach ++ filter (fun i => nin i nodes) l, mr', mg') /\ NoDup mr' /\ NoDup (map fst mg') /\
    (forall x, In x mr' <-> In x mr /\ ~ (In x l /\ ~ In x nodes)) /\ (forall g k, In (g, k) mg' <-> In (g, k) mg /\ ~ (In g l /\ ~ In g nodes)).
Proof.
  induction l as [|i l IH]; intros reach mr mg Nl Nm Nk H.
  - cbn [rfold filter]. exists mr, mg. rewrite app_nil_r. split; [reflexivity|]. split; [exact Nm|]. split; [exact Nk|]. split; intros; cbn; tauto.
  - inversion Nl as [|? ? N1 N2]. subst. rewrite label_cons. cbn [filter]. destruct (nin i nodes) eqn:Ei.
    + apply nin_in in Ei. destruct (IH (reach ++ [i]) mr mg N2 Nm Nk) as (mr' & mg' & E & A1 & A2 & A3 & A4); [intros j Hj; apply H; now right|].
      exists mr', mg'. rewrite E, <- app_assoc. cbn [app]. split; [reflexivity|]. split; [exact A1|]. split; [exact A2|]. split.
      * intros x. rewrite A3. cbn [In]. destruct (Nat.eq_dec i x) as [->|Ne]; intuition.
      * intros g k. rewrite A4. cbn [In]. destruct (Nat.eq_dec i g) as [->|Ne]; intuition.
    + apply nin_not in Ei. destruct (H i (or_introl eq_refl) Ei) as [Hm Hk]. destruct (lremove_ok i mr Nm Hm) as (mr1 & E1 & M1 & M2). rewrite E1. cbn [rbind].
      destruct (gget_key mg i Hk) as (v & Ev). rewrite Ev. cbn [rbind].
      destruct (IH reach mr1 (gdel mg i) N2 M1 (gdel_nodup mg i Nk)) as (mr' & mg' & E & A1 & A2 & A3 & A4).
      { intros j Hj Nj. assert (j <> i) by (intros ->; auto). destruct (H j (or_intror Hj) Nj) as [Hjm Hjk]. split; [now apply M2|].
        unfold keyed_by in *. apply in_map_iff in Hjk as ([k w] & Ek & Hw). cbn [fst] in Ek. subst k. apply in_map_iff. exists (j, w). split; [reflexivity|]. now apply gdel_in. }
      exists mr', mg'. rewrite E. split; [reflexivity|]. split; [exact A1|]. split; [exact A2|]. split.
      * intros x. rewrite A3, M2. cbn [In]. destruct (Nat.eq_dec i x) as [->|Ne]; intuition.
      * intros g k. rewrite A4, gdel_in. cbn [In]. destruct (Nat.eq_dec i g) as [->|Ne]; intuition.
Qed.
Lemma label_bad nodes i : forall l (reach mr : list nat) (mg : gdict), In i l -> ~ In i nodes -> ~ In i mr -> NoDup l -> NoDup mr -> (forall x, In x mr -> keyed_by mg x) ->
  rfold (label_rule nodes) l (reach, mr, mg) = Err ValueError.
Proof.
  induction l as [|j l IH]; intros reach mr mg Hi Hn Hm Nl Nm Hk; [destruct Hi|]. inversion Nl as [|? ? N1 N2]. subst. rewrite label_cons. destruct (nin j nodes) eqn:Ej.
  - apply nin_in in Ej. destruct Hi as [->|Hi]; [tauto|]. now apply IH.
  - destruct (in_dec Nat.eq_dec j mr) as [Hj|Hj]; [|rewrite (lremove_err j mr Hj); reflexivity].
    destruct (lremove_ok j mr Nm Hj) as (mr1 & E1 & M1 & M2). rewrite E1. cbn [rbind]. destruct (gget_key mg j (Hk j Hj)) as (v & Ev). rewrite Ev. cbn [rbind].
    destruct Hi as [->|Hi]; [tauto|]. apply IH; try assumption.
    + intros X. apply M2 in X. tauto.
    + intros x Hx. apply M2 in Hx as [Hx Nx]. specialize (Hk x Hx). unfold keyed_by in *. apply in_map_iff in Hk as ([k w] & Ek & Hw). cbn [fst] in Ek. subst k.
      apply in_map_iff. exists (x, w). split; [reflexivity|]. now apply gdel_in.
Qed.

(** *** The numbers of the groups *)
Lemma number_list_ok nodes id : forall l a, (forall x, In x l -> In x nodes) ->
  exists a', number_list nodes id l a = Ok a' /\ forall x, a' x = if nin x l then Some id else a x.
Proof.
  unfold number_list. induction l as [|y l IH]; intros a H; cbn [rfold]; [exists a; split; reflexivity|].
  rewrite (proj2 (nin_in y nodes) (H y (or_introl eq_refl))). cbn [rbind].
  destruct (IH (fun x => if Nat.eqb x y then Some id else a x)) as (a' & E & A); [intros x Hx; apply H; now right|].
  exists a'. split; [exact E|]. intros x. rewrite A. unfold nin. cbn [existsb]. destruct (existsb (Nat.eqb x) l); [now rewrite orb_true_r|]. now destruct (Nat.eqb x y).
Qed.
Lemma number_lists_ok nodes : forall gs id a, (forall l x, In l gs -> In x l -> In x nodes) ->
  (forall k k' l l' x, nth_error gs k = Some l -> nth_error gs k' = Some l' -> In x l -> In x l' -> k = k') ->
  exists a', number_lists nodes id gs a = Ok a' /\ (forall k l x, nth_error gs k = Some l -> In x l -> a' x = Some (id + Z.of_nat k)%Z) /\
    (forall x, (forall l, In l gs -> ~ In x l) -> a' x = a x).
Proof.
  induction gs as [|l gs IH]; intros id a Hn Hd; cbn [number_lists].
  - exists a. split; [reflexivity|]. split; [intros [|k] l x [=]|reflexivity].
  - destruct (number_list_ok nodes id l a) as (a1 & E1 & A1); [intros x Hx; eapply Hn; [now left|exact Hx]|]. rewrite E1. cbn [rbind].
    destruct (IH (id + 1)%Z a1) as (a' & E & A & B).
    + intros l0 x H0. apply Hn. now right.
    + intros k k' l0 l1 x H0 H1 X0 X1. specialize (Hd (S k) (S k') l0 l1 x H0 H1 X0 X1). lia.
    + exists a'. split; [exact E|]. split.
      * intros [|k] l0 x Hk Hx; cbn [nth_error] in Hk.
        -- injection Hk as <-. rewrite B; [rewrite A1, (proj2 (nin_in x l) Hx); f_equal; lia|]. intros l0 H0 X0. apply In_nth_error in H0 as (k & Hk). specialize (Hd 0 (S k) l l0 x eq_refl Hk Hx X0). lia.
        -- rewrite (A k l0 x Hk Hx). f_equal. lia.
      * intros x H. rewrite B; [|intros l0 H0; apply H; now right]. rewrite A1. destruct (nin x l) eqn:X; [|reflexivity]. apply nin_in in X. elim (H l (or_introl eq_refl) X).
Qed.

(** *** Isolated rules *)
Lemma not_node rules deps i : ~ In i (graph_nodes rules deps) <-> isolated deps i.
Proof.
  rewrite graph_nodes_in. unfold isolated. split.
  - intros H a b Hab. split; intros ->; apply H; eauto 6.
  - intros H (a & b & Hab & [->| ->]); destruct (H a b Hab); congruence.
Qed.
Section Groups.
  Context (rules : list rule) (deps : list (nat * nat)) (d : gdict) (m : rdict).
  Context (Hf : forward rules deps).
  Let U := seq 0 (List.length rules).
  Context (P : part_ok U d m) (C : coarsest rules deps d).
  Let nodes := graph_nodes rules deps.
  Lemma nodes_in_U x : In x nodes -> In x U.
  Proof.
    intros H. unfold nodes in H. apply graph_nodes_in in H as (a & b & Hab & Ex). apply (forward_within rules deps Hf) in Hab. apply in_seq. destruct Ex as [->| ->]; lia.
  Qed.
  Lemma together_isolated i j : together d i j -> isolated deps i -> isolated deps j.
  Proof.
    intros T H a b Hab. destruct (proj1 C i j T) as (_ & A1 & A2 & A3 & A4). split; intros ->.
    - destruct (A4 b Hab) as (k & Hk & _). destruct (H i k Hk). congruence.
    - destruct (A2 a Hab) as (k & Hk & _). destruct (H k i Hk). congruence.
  Qed.
  Lemma together_sym i j : together d i j -> together d j i.
  Proof. intros (g & l & A & B & D). exists g, l. auto. Qed.
  Lemma twins_together : twins rules deps <-> exists i j, i <> j /\ together d i j /\ isolated deps i.
  Proof.
    split.
    - intros (i & j & R & S0 & N & HR & HS & Sim & Ii & Ij). exists i, j. split; [exact N|]. split; [|exact Ii].
      apply (proj2 C (fun a b => a = i /\ b = j)); [|auto]. intros a b [-> ->]. split; [eauto|].
      split; [intros k Hk; destruct (Ii k i Hk); congruence|]. split; [intros k Hk; destruct (Ij k j Hk); congruence|].
      split; [intros k Hk; destruct (Ii i k Hk); congruence|intros k Hk; destruct (Ij j k Hk); congruence].
    - intros (i & j & N & T & Ii). destruct (proj1 C i j T) as ((R & S0 & HR & HS & Sim) & _). exists i, j, R, S0. do 4 (split; [assumption|]). split; [exact Ii|]. eapply together_isolated; eauto.
  Qed.
  Lemma rep_in_U g l : In (g, l) d -> In g U.
  Proof. intros H. eapply part_in; [exact P|exact H|]. eapply part_head; [exact P|exact H]. Qed.
  Lemma rep_of x : In x U -> exists g l, In (g, l) d /\ In x l /\ m x = Some g /\ together d g x.
  Proof.
    intros Hx. destruct (part_find _ _ _ _ P Hx) as (g & l & Hl & Il & E). exists g, l. do 3 (split; [assumption|]). exists g, l. split; [exact Hl|]. split; [eapply part_head; eauto|exact Il].
  Qed.
  Lemma rep_self g l : In (g, l) d -> m g = Some g.
  Proof. intros H. assert (Hg := part_head _ _ _ _ _ P H). destruct P as (_ & _ & _ & M). eapply M; eauto. Qed.
  Lemma together_key i j : together d i j -> rule_key rules i = rule_key rules j.
  Proof. intros T. destruct (proj1 C i j T) as ((R & S0 & HR & HS & ((T1 & T2 & _) & _)) & _). unfold rule_key. rewrite HR, HS. unfold sort_key. now rewrite T1, T2. Qed.
  Lemma forward_downward : downward rules deps.
  Proof.
    intros a b H. assert (W := forward_within rules deps Hf a b H). split; [apply W|]. split; [apply W|].
    destruct (Hf a b H) as (R & S0 & HR & HS & L). unfold sooner, rule_key. rewrite HR, HS. unfold sort_key. cbn [fst snd]. lia.
  Qed.

  (** the numbers of the groups that remain *)
  Context (mg : gdict) (Nk : NoDup (map fst mg)) (Hmg : forall g l, In (g, l) mg <-> In (g, l) d /\ In g nodes).
  Lemma numbers_ok : exists gid, compressed_attr rules nodes mg = Ok gid /\
    (forall x, In x nodes -> exists k, gid x = Some k /\ 1 <= k <= Z.of_nat (List.length mg))%Z /\
    (forall x y, In x nodes -> In y nodes -> (gid x = gid y <-> together d x y)) /\
    (forall x y, In x nodes -> In y nodes -> sooner (rule_key rules) x y -> exists a b, gid x = Some a /\ gid y = Some b /\ a < b)%Z.
  Proof.
    set (keys := sort_ids rules (map fst mg)).
    assert (Pk : Permutation keys (map fst mg)) by apply sort_by_perm.
    assert (Sk : StronglySorted (fun a b => skey_le rules a b = true) keys).
    { unfold keys, sort_ids. apply sort_by_sorted; clear; unfold skey_le; intros; lia. }
    assert (Nk' : NoDup keys) by (eapply Permutation_NoDup; [apply Permutation_sym, Pk|exact Nk]).
    set (F := fun g => match gget mg g with Ok l => l | Err _ => [] end).
    assert (Fk : forall g, In g keys -> In (g, F g) mg).
    { intros g Hg. apply (Permutation_in _ Pk) in Hg. apply in_map_iff in Hg as ([g' l] & E & Hl). cbn [fst] in E. subst g'. unfold F. now rewrite (gget_in mg g l Nk Hl). }
    assert (E1 : rall (map (gget mg) keys) = Ok (map F keys)).
    { apply rall_map_ok. intros g Hg. specialize (Fk g Hg). unfold F in *. now rewrite (gget_in mg g _ Nk Fk). }
    assert (Mem : forall g x, In g keys -> In x (F g) -> m x = Some g /\ In (g, F g) d /\ In g nodes).
    { intros g x Hg Hx. apply Fk, Hmg in Hg as [Hg1 Hg2]. split; [|auto]. destruct P as (_ & _ & _ & M). eapply M; eauto. }
    assert (At : forall k l x, nth_error (map F keys) k = Some l -> In x l -> exists g, nth_error keys k = Some g /\ m x = Some g /\ l = F g).
    { intros k l x Hk Hx. rewrite nth_error_map in Hk. destruct (nth_error keys k) as [g|] eqn:Eg; [|discriminate Hk]. cbn [option_map] in Hk. injection Hk as <-. exists g.
      split; [reflexivity|]. split; [|reflexivity]. eapply Mem; [eapply nth_error_In; eauto|exact Hx]. }
    destruct (number_lists_ok nodes (map F keys) 1 (fun _ => None)) as (gid & E & A & _).
    { intros l x Hl Hx. apply in_map_iff in Hl as (g & <- & Hg). destruct (Mem g x Hg Hx) as (Mx & Hd & Hn).
      destruct (in_dec Nat.eq_dec x nodes) as [Hx'|Hx']; [exact Hx'|]. apply (not_node rules) in Hx'. assert (T : together d x g) by (exists g, (F g); split; [exact Hd|]; split; [exact Hx|eapply part_head; eauto]).
      apply (together_isolated x g T) in Hx'. apply (not_node rules) in Hx'. contradiction. }
    { intros k k' l l' x Hk Hk' Hx Hx'. destruct (At k l x Hk Hx) as (g & G1 & G2 & _), (At k' l' x Hk' Hx') as (g' & G1' & G2' & _). assert (g' = g) by congruence. subst g'.
      apply (proj1 (NoDup_nth_error keys) Nk'); [apply nth_error_Some; congruence|congruence]. }
    (* every node has its place *)
    assert (Pl : forall x, In x nodes -> exists g l k, In (g, l) d /\ In x l /\ m x = Some g /\ together d g x /\ nth_error keys k = Some g /\ gid x = Some (1 + Z.of_nat k)%Z).
    { intros x Hx. destruct (rep_of x (nodes_in_U x Hx)) as (g & l & Hl & Il & Mx & T).
      assert (Hg : In g nodes). { destruct (in_dec Nat.eq_dec g nodes) as [X|X]; [exact X|]. apply (not_node rules) in X. apply (together_isolated g x T) in X. apply (not_node rules) in X. contradiction. }
      assert (Hm : In (g, l) mg) by (apply Hmg; auto). assert (Hk : In g keys) by (apply (Permutation_in _ (Permutation_sym Pk)); apply in_map_iff; exists (g, l); auto).
      apply In_nth_error in Hk as (k & Hk). exists g, l, k. do 5 (split; [assumption|]). apply (A k (F g)); [now rewrite nth_error_map, Hk|].
      unfold F. now rewrite (gget_in mg g l Nk Hm). }
    exists gid. split; [unfold compressed_attr; fold keys; rewrite E1; exact E|]. split; [|split].
    - intros x Hx. destruct (Pl x Hx) as (g & l & k & _ & _ & _ & _ & Hk & Ex). exists (1 + Z.of_nat k)%Z. split; [exact Ex|].
      assert (k < List.length keys) by (apply nth_error_Some; congruence). apply Permutation_length in Pk. rewrite map_length in Pk. lia.
    - intros x y Hx Hy. destruct (Pl x Hx) as (g & l & k & Hl & Il & Mx & _ & Hk & Ex), (Pl y Hy) as (g' & l' & k' & Hl' & Il' & My & _ & Hk' & Ey). rewrite Ex, Ey. split.
      + intros X0. assert (X : (1 + Z.of_nat k = 1 + Z.of_nat k')%Z) by congruence. assert (k' = k) by lia. subst k'. assert (g' = g) by congruence. subst g'. exists g, l. split; [exact Hl|]. split; [exact Il|].
        assert (E2 := part_get _ _ _ _ _ P Hl). assert (E3 := part_get _ _ _ _ _ P Hl'). assert (l' = l) by congruence. now subst l'.
      + intros T. apply (together_rep rules d m x y P) in T as (_ & _ & T). assert (g' = g) by congruence. subst g'.
        assert (k = k') by (apply (proj1 (NoDup_nth_error keys) Nk'); [apply nth_error_Some; congruence|congruence]). now subst.
    - intros x y Hx Hy Sn. destruct (Pl x Hx) as (g & l & k & _ & _ & _ & T & Hk & Ex), (Pl y Hy) as (g' & l' & k' & _ & _ & _ & T' & Hk' & Ey).
      exists (1 + Z.of_nat k)%Z, (1 + Z.of_nat k')%Z. split; [exact Ex|]. split; [exact Ey|].
      apply together_key in T, T'. unfold sooner in Sn. rewrite <- T, <- T' in Sn.
      assert (Kg : forall z, rule_key rules z = skey rules z \/ nth_error rules z = None) by (intros z; unfold rule_key, skey; destruct (nth_error rules z); [left; reflexivity|auto]).
      assert (Lt : skey_le rules g' g = false).
      { unfold skey_le. unfold rule_key in Sn. unfold skey. destruct (nth_error rules g) as [R|], (nth_error rules g') as [R'|]; unfold sort_key in Sn; cbn [fst snd] in *; lia. }
      destruct (Nat.lt_trichotomy k k') as [L|[->|L]]; [lia| |].
      + assert (g' = g) by congruence. subst g'. unfold skey_le in Lt. rewrite Z.ltb_irrefl, Z.eqb_refl, Z.leb_refl in Lt. discriminate Lt.
      + exfalso. clear - Sk Hk Hk' L Lt. revert k k' Hk Hk' L. induction Sk as [|a l S0 IH Fa]; intros k k' Hk Hk' L; [destruct k; discriminate Hk|].
        destruct k' as [|k']; cbn [nth_error] in Hk'.
        * injection Hk' as ->. destruct k as [|k]; [lia|]. cbn [nth_error] in Hk. apply nth_error_In in Hk. rewrite Forall_forall in Fa. specialize (Fa g Hk). congruence.
        * destruct k as [|k]; [lia|]. cbn [nth_error] in Hk. apply (IH k k' Hk Hk'). lia.
  Qed.
End Groups.

(** ** C95 *)
(** What a good drawing is: one node for each rule with a dependency, labelled in order; the filled
    nodes [sel]; edges lead down; and with --group compressed the groups [d] are numbered from 1,
    two rules have the same number if and only if they are in a group, and rules of earlier tables
    and higher priorities have lower numbers. *)
Definition well_drawn (rules : list rule) (deps : list (nat * nat)) (d : list (nat * list nat)) (group : option Layout.grouping) (sel : nat -> Prop) (D : drawn) : Prop :=
  exists nodes, (forall x, In x nodes <-> ~ isolated deps x) /\ StronglySorted lt (d_labelled D) /\ (forall x, In x (d_labelled D) <-> In x nodes) /\
  drawing deps 1 nodes (d_pos D) /\ NoDup (d_filled D) /\ (forall x, In x (d_filled D) <-> sel x /\ In x nodes) /\
  (group = None ->
    (forall x y, In x nodes -> In y nodes -> (d_group D x = d_group D y <-> together d x y)) /\
    (forall x, In x nodes -> exists k, d_group D x = Some k /\ 1 <= k <= Z.of_nat (List.length d))%Z /\
    (forall x y R S a b, nth_error rules x = Some R -> nth_error rules y = Some S -> d_group D x = Some a -> d_group D y = Some b ->
       In x nodes -> In y nodes -> (table (rcore R) < table (rcore S) \/ table (rcore R) = table (rcore S) /\ priority (rcore S) < priority (rcore R))%Z -> (a < b)%Z)).

Lemma filter_sorted {A} (le : A -> A -> Prop) f l : StronglySorted le l -> StronglySorted le (filter f l).
Proof.
  induction 1 as [|x l S0 IH F]; cbn [filter]; [constructor|]. destruct (f x); [|exact IH]. constructor; [exact IH|]. rewrite Forall_forall in *. intros y Hy. apply filter_In in Hy as [Hy _]. auto.
Qed.
Lemma seq_sorted n : forall a, StronglySorted lt (seq a n).
Proof. induction n as [|n IH]; intros a; cbn [seq]; constructor; [apply IH|]. apply Forall_forall. intros x H. apply in_seq in H. lia. Qed.
Section Rest.
  Context (rules : list rule) (deps : list (nat * nat)) (d : gdict) (m : rdict).
  Context (Hf : forward rules deps) (Hne : deps <> []).
  Let U := seq 0 (List.length rules).
  Context (P : part_ok U d m) (C : coarsest rules deps d).
  Let nodes := graph_nodes rules deps.
  (** after the labelling loop nothing fails *)
  Lemma rest_ok group mr mg (sel : nat -> Prop) : NoDup mr -> NoDup (map fst mg) -> (forall g l, In (g, l) mg <-> In (g, l) d /\ In g nodes) ->
    (forall x, In x mr <-> sel x /\ In x nodes) ->
    exists D, (do gid <- match group with None => compressed_attr rules nodes mg | Some g => Ok (graph_groups rules nodes g) end;
      do pos <- directed_layout deps (rule_key rules) gid 1 true true nodes;
      do filled <- rall (map (fun x => if nin x nodes then Ok x else Err KeyError) mr);
      Ok (mkDrawn (filter (fun i => nin i nodes) U) filled gid pos)) = Ok D /\ well_drawn rules deps d group sel D /\ d_filled D = mr.
  Proof.
    intros Nm Nk Hmg Hs.
    assert (Ef : rall (map (fun x => if nin x nodes then Ok x else Err KeyError) mr) = Ok mr).
    { rewrite <- (map_id mr) at 2. apply rall_map_ok. intros x Hx. apply Hs in Hx as [_ Hx]. apply nin_in in Hx. now rewrite Hx. }
    assert (Ed : forall a b, In (a, b) deps -> In a nodes /\ In b nodes) by (intros a b H; split; apply graph_nodes_in; eauto 6).
    assert (G : exists gid, match group with None => compressed_attr rules nodes mg | Some g => Ok (graph_groups rules nodes g) end = Ok gid /\ drawable deps (rule_key rules) gid nodes /\
      (group = None -> (forall x, In x nodes -> exists k, gid x = Some k /\ 1 <= k <= Z.of_nat (List.length mg))%Z /\
        (forall x y, In x nodes -> In y nodes -> (gid x = gid y <-> together d x y)) /\
        (forall x y, In x nodes -> In y nodes -> sooner (rule_key rules) x y -> exists a b, gid x = Some a /\ gid y = Some b /\ a < b)%Z)).
    { destruct group as [g|].
      - exists (graph_groups rules nodes g). split; [reflexivity|]. split; [|discriminate]. apply draw_drawable; [exact Hne|]. now apply (forward_downward rules deps).
      - destruct (numbers_ok rules deps d m Hf P C mg Nk Hmg) as (gid & E & A1 & A2 & A3). exists gid. split; [exact E|]. split; [|auto].
        split; [|split; [|split]].
        + destruct deps as [|[a b] t]; [congruence|]. intros X. destruct (Ed a b (or_introl eq_refl)) as [H _]. rewrite X in H. destruct H.
        + unfold nodes, graph_nodes. apply first_only_nodup.
        + left. intros x Hx X. destruct (A1 x Hx) as (k & Ek & _). congruence.
        + intros a b H. destruct (Ed a b H) as [Ha Hb]. split; [exact Ha|]. split; [exact Hb|].
          destruct (A3 a b Ha Hb) as (x & y & Ex & Ey & L); [now apply (forward_downward rules deps)|]. unfold ordered_edge. rewrite Ex, Ey. now left. }
    destruct G as (gid & E1 & Dr & Gn). rewrite E1. cbn [rbind].
    destruct (C70_children_below deps (rule_key rules) gid 1 true true nodes eq_refl Dr) as (pos & E2 & Dp). rewrite E2. cbn [rbind]. rewrite Ef. cbn [rbind].
    eexists. split; [reflexivity|]. split; [|reflexivity]. exists nodes. cbn [d_labelled d_filled d_group d_pos].
    split; [intros x; unfold nodes; rewrite <- (not_node rules deps x); destruct (in_dec Nat.eq_dec x (graph_nodes rules deps)); tauto|].
    split; [apply filter_sorted, seq_sorted|]. split.
    { intros x. rewrite filter_In, nin_in. split; [tauto|]. intros H. split; [|exact H]. exact (nodes_in_U rules deps Hf x H). }
    split; [exact Dp|]. split; [exact Nm|]. split; [exact Hs|]. intros En. destruct (Gn En) as (A1 & A2 & A3). split; [exact A2|]. split.
    - intros x Hx. destruct (A1 x Hx) as (k & Ek & L). exists k. split; [exact Ek|].
      assert (List.length (map fst mg) <= List.length (map fst d)).
      { apply NoDup_incl_length; [exact Nk|]. intros g Hg. apply in_map_iff in Hg as ([g' l] & Eg & Hl). cbn [fst] in Eg. subst g'. apply Hmg in Hl as [Hl _]. apply in_map_iff. exists (g, l). auto. }
      rewrite !map_length in H. lia.
    - intros x y R S0 a b HR HS Ea Eb Hx Hy L. destruct (A3 x y Hx Hy) as (a' & b' & Ea' & Eb' & L').
      { unfold sooner, rule_key. rewrite HR, HS. unfold sort_key. cbn [fst snd]. lia. }
      assert (a' = a) by congruence. assert (b' = b) by congruence. now subst.
  Qed.
End Rest.

(** With --compress the drawing fails if and only if two similar rules have no dependencies: then
    min_ruleset.remove raises a ValueError. Otherwise the filled nodes are the representatives that
    have a dependency. *)
Theorem C95_compress : forall ord r rules deps group res d, (forall l, Permutation (ord l) l) -> (forall R, In R rules -> rule_ok r R) ->
  forward rules deps -> deps <> [] -> compress_deps ord rules deps = Ok (res, d) ->
  (twins rules deps /\ draw_compressed ord rules false group deps = Err ValueError) \/
  (~ twins rules deps /\ exists D, draw_compressed ord rules false group deps = Ok D /\ well_drawn rules deps d group (fun x => In x res) D /\
     forall x, ~ isolated deps x -> exists! g, In g (d_filled D) /\ together d g x).
Proof.
  intros ord r rules deps group res d Ho Hr Hf Hne E. assert (Hd := forward_within rules deps Hf).
  destruct (compress_cases ord r rules deps res d Ho Hr Hd E) as (m & P & C & Er & _).
  assert (Pr := sort_by_perm (skey_le rules) (map fst d)). fold (sort_ids rules (map fst d)) in Pr. rewrite <- Er in Pr.
  assert (Nd : NoDup (map fst d)) by (eapply part_keys_nodup; exact P). assert (Nr : NoDup res) by (eapply Permutation_NoDup; [apply Permutation_sym, Pr|exact Nd]).
  assert (T : (exists i, In i (seq 0 (List.length rules)) /\ isolated deps i /\ ~ In i res) \/ (forall i, In i (seq 0 (List.length rules)) -> isolated deps i -> In i res)).
  { destruct (forallb (fun i => nin i (graph_nodes rules deps) || nin i res) (seq 0 (List.length rules))) eqn:Ef.
    - right. intros i Hi Is. rewrite forallb_forall in Ef. specialize (Ef i Hi). apply orb_true_iff in Ef as [X|X]; apply nin_in in X; [|exact X]. apply (not_node rules) in Is. contradiction.
    - left. assert (X : exists i, In i (seq 0 (List.length rules)) /\ nin i (graph_nodes rules deps) || nin i res = false).
      { clear - Ef. induction (seq 0 (List.length rules)) as [|i l IH]; [discriminate Ef|]. cbn [forallb] in Ef. destruct (nin i (graph_nodes rules deps) || nin i res) eqn:Ei; [|exists i; cbn; auto].
        destruct (IH Ef) as (j & A & B). exists j. cbn. auto. }
      destruct X as (i & Hi & X). apply orb_false_iff in X as [X1 X2]. apply nin_not in X1, X2. exists i. split; [exact Hi|]. split; [now apply (not_node rules)|exact X2]. }
  assert (Keys : forall x, In x res <-> keyed_by d x) by (intros x; split; intros H; [exact (Permutation_in _ Pr H)|exact (Permutation_in _ (Permutation_sym Pr) H)]).
  unfold draw_compressed. rewrite E. cbn [rbind]. destruct T as [(i & Hi & Is & Ni)|T].
  - left. split.
    + apply (twins_together rules deps d C). destruct (rep_of rules d m P i Hi) as (g & l & Hl & Il & Mi & Tg). exists g, i. split; [|split; [exact Tg|]].
      * intros ->. apply Ni, Keys. apply in_map_iff. exists (i, l). auto.
      * eapply together_isolated; [exact C| |exact Is]. now apply together_sym.
    + rewrite (label_bad (graph_nodes rules deps) i); [reflexivity|exact Hi|now apply not_node|exact Ni|apply seq_NoDup|exact Nr|intros x Hx; now apply Keys].
  - right. split.
    + intros W. apply (twins_together rules deps d C) in W as (i & j & Nij & Tij & Is). assert (Js : isolated deps j) by (eapply together_isolated; eauto).
      apply (together_rep rules d m i j P) in Tij as (Ui & Uj & Eij). apply (T i Ui) in Is. apply (T j Uj) in Js. apply Keys in Is, Js.
      unfold keyed_by in Is, Js. apply in_map_iff in Is as ([i' l] & E1 & Hl), Js as ([j' l'] & E2 & Hl'). cbn [fst] in E1, E2. subst i' j'.
      apply (rep_self rules d m P) in Hl, Hl'. congruence.
    + destruct (label_good (graph_nodes rules deps) (seq 0 (List.length rules)) [] res d (seq_NoDup _ _) Nr Nd) as (mr & mg & El & N1 & N2 & M1 & M2).
      { intros i Hi Ni. apply (not_node rules) in Ni. specialize (T i Hi Ni). split; [exact T|now apply Keys]. }
      rewrite El. cbn [rbind app].
      assert (Ku : forall g, keyed_by d g -> In g (seq 0 (List.length rules))) by (intros g Hg; unfold keyed_by in Hg; apply in_map_iff in Hg as ([g' l] & Eg & Hl); cbn [fst] in Eg; subst g'; exact (rep_in_U rules d m P g l Hl)).
      assert (Dec : forall x, In x (graph_nodes rules deps) \/ ~ In x (graph_nodes rules deps)) by (intros x; destruct (in_dec Nat.eq_dec x (graph_nodes rules deps)); auto).
      destruct (rest_ok rules deps d m Hf Hne P C group mr mg (fun x => In x res) N1 N2) as (D & ED & WD & FD).
      * intros g l. rewrite M2. split; intros [A B]; (split; [exact A|]); [|tauto]. assert (Ug : In g (seq 0 (List.length rules))) by (apply Ku, in_map_iff; exists (g, l); auto). destruct (Dec g); tauto.
      * intros x. rewrite M1. split; intros [A B]; (split; [exact A|]); [|tauto]. assert (Ug : In x (seq 0 (List.length rules))) by (apply Ku, Keys, A). destruct (Dec x); tauto.
      * exists D. split; [exact ED|]. split; [exact WD|]. intros x Hx.
        assert (Nx : In x (graph_nodes rules deps)). { destruct (Dec x) as [X|X]; [exact X|]. apply (not_node rules) in X. contradiction. }
        destruct (rep_of rules d m P x (nodes_in_U rules deps Hf x Nx)) as (g & l & Hl & Il & Mx & Tg). exists g. split.
        -- split; [|exact Tg]. rewrite FD. apply M1. split; [apply Keys, in_map_iff; exists (g, l); auto|]. intros [_ Ng]. apply Ng. destruct (Dec g) as [X|X]; [exact X|].
           apply (not_node rules) in X. apply (together_isolated rules deps d C g x Tg) in X. contradiction.
        -- intros g' [Hg' Tg']. rewrite FD in Hg'. apply M1 in Hg' as [Hg' _]. apply Keys in Hg'. unfold keyed_by in Hg'. apply in_map_iff in Hg' as ([g1 l1] & E1 & Hl1). cbn [fst] in E1. subst g1.
           apply (rep_self rules d m P) in Hl1. apply (together_rep rules d m g' x P) in Tg' as (_ & _ & Tg'). congruence.
Qed.

(** With --only-group it fails if and only if some rule has no dependency, since no
    representatives are chosen. Otherwise no node is filled. *)
Theorem C95_only_group : forall ord r rules deps group d m, (forall R, In R rules -> rule_ok r R) -> forward rules deps -> deps <> [] ->
  create_similar_groups rules deps = Ok (d, m) ->
  ((exists i, i < List.length rules /\ isolated deps i) /\ draw_compressed ord rules true group deps = Err ValueError) \/
  ((forall i, i < List.length rules -> ~ isolated deps i) /\ exists D, draw_compressed ord rules true group deps = Ok D /\ well_drawn rules deps d group (fun _ => False) D).
Proof.
  intros ord r rules deps group d m Hr Hf Hne E. assert (Hd := forward_within rules deps Hf).
  destruct (create_cases r rules deps Hr Hd) as [(d0 & m0 & E0 & P & _ & C)|(E0 & _)]; rewrite E0 in E; [|discriminate E]. injection E as -> ->.
  assert (Nd : NoDup (map fst d)) by (eapply part_keys_nodup; exact P).
  assert (Dec : forall x, In x (graph_nodes rules deps) \/ ~ In x (graph_nodes rules deps)) by (intros x; destruct (in_dec Nat.eq_dec x (graph_nodes rules deps)); auto).
  assert (T : (exists i, In i (seq 0 (List.length rules)) /\ ~ In i (graph_nodes rules deps)) \/ (forall i, In i (seq 0 (List.length rules)) -> In i (graph_nodes rules deps))).
  { clear - Dec. induction (seq 0 (List.length rules)) as [|i l IH]; [right; intros i []|]. destruct (Dec i) as [X|X]; [|left; exists i; cbn; auto].
    destruct IH as [(j & A & B)|IH]; [left; exists j; cbn; auto|right; intros j [<-|Hj]; auto]. }
  unfold draw_compressed. rewrite E0. cbn [rbind]. destruct T as [(i & Hi & Ni)|T].
  - left. split; [exists i; split; [apply in_seq in Hi; lia|now apply (not_node rules)]|].
    rewrite (label_bad (graph_nodes rules deps) i); [reflexivity|exact Hi|exact Ni|intros []|apply seq_NoDup|constructor|intros x []].
  - right. split; [intros i Hi Is; apply (not_node rules) in Is; apply Is, T, in_seq; lia|].
    destruct (label_good (graph_nodes rules deps) (seq 0 (List.length rules)) [] [] d (seq_NoDup _ _) (NoDup_nil _) Nd) as (mr & mg & El & N1 & N2 & M1 & M2).
    { intros i Hi Ni. elim Ni. now apply T. }
    rewrite El. cbn [rbind app]. destruct (rest_ok rules deps d m Hf Hne P C group mr mg (fun _ => False) N1 N2) as (D & ED & WD & _).
    + intros g l. rewrite M2. split; intros [A B]; (split; [exact A|]); [|tauto]. apply T. exact (rep_in_U rules d m P g l A).
    + intros x. rewrite M1. cbn [In]. tauto.
    + exists D. split; [exact ED|exact WD].
Qed.

(** ** Examples *)
Local Open Scope string_scope.
Definition ex95 : list rule := [
  mk_g 30 0 [("IN_PORT", (0, None)); ("ETH_TYPE", (1, None))]%Z (outp 1); mk_g 20 0 [("IN_PORT", (0, None))]%Z (outp 2);
  mk_g 10 0 [("IN_PORT", (1, None))]%Z (outp 1); mk_g 10 0 [("IN_PORT", (2, None))]%Z (outp 2)].
Lemma ex95_deps : snd (ind_ruleset_deps 2 1 false ex95 registry_init) = Ok [(0, 1)].
Proof. vm_compute. reflexivity. Qed.
Lemma ex95_compress : compress_deps (fun l => l) ex95 [(0, 1)] = Ok ([0; 1; 2], [(0, [0]); (1, [1]); (2, [2; 3])]).
Proof. vm_compute. reflexivity. Qed.
(** Compression succeeds but the drawing fails: rules 2 and 3 are similar and overlap no other rule. *)
Theorem C95_always_refuted : exists rules deps res d, snd (ind_ruleset_deps 2 1 false rules registry_init) = Ok deps /\ deps <> [] /\ forward rules deps /\
  compress_deps (fun l => l) rules deps = Ok (res, d) /\ draw_compressed (fun l => l) rules false None deps = Err ValueError.
Proof.
  exists ex95, [(0, 1)]. eexists _, _. split; [exact ex95_deps|]. split; [discriminate|]. split; [|split; [exact ex95_compress|vm_compute; reflexivity]].
  intros a b [[= <- <-]|[]]. eexists _, _. split; [reflexivity|]. split; [reflexivity|]. right. split; reflexivity.
Qed.
(** Five rules in three groups, every rule with a dependency. *)
Example C95_ex : ~ twins ex50 ex50_deps /\ exists D, draw_compressed (fun l => l) ex50 false None ex50_deps = Ok D /\
  d_filled D = [0; 2; 4] /\ map (d_group D) [0; 1; 2; 3; 4; 5] = [Some 1; Some 1; Some 2; Some 2; Some 3; None]%Z /\
  well_drawn ex50 ex50_deps [(0, [0; 1]); (2, [2; 3]); (4, [4])] None (fun x => In x [0; 2; 4]) D.
Proof.
  destruct (C95_compress (fun l => l) registry_init ex50 ex50_deps None _ _ (fun l => Permutation_refl l) ex50_ok ex50_forward ltac:(discriminate) C50_ex) as [(_ & E)|(N & D & E & W & _)].
  - assert (X : is_ok (draw_compressed (fun l => l) ex50 false None ex50_deps) = true) by (vm_compute; reflexivity). rewrite E in X. discriminate X.
  - split; [exact N|]. exists D. split; [exact E|].
    assert (X : match draw_compressed (fun l => l) ex50 false None ex50_deps with Ok D => (d_filled D, map (d_group D) [0; 1; 2; 3; 4; 5]) | Err _ => ([], []) end =
      ([0; 2; 4], [Some 1; Some 1; Some 2; Some 2; Some 3; None]%Z)) by (vm_compute; reflexivity).
    rewrite E in X. split; [exact (f_equal fst X)|]. split; [exact (f_equal snd X)|exact W].
Qed.
(** A single isolated rule of its kind is no obstacle, but with --only-group it is. *)
Example C95_ex_isolated : (exists D, draw_compressed (fun l => l) (firstn 3 ex95) false None [(0, 1)] = Ok D /\ d_labelled D = [0; 1] /\ d_filled D = [0; 1]) /\
  draw_compressed (fun l => l) (firstn 3 ex95) true None [(0, 1)] = Err ValueError.
Proof. split; [eexists; split; [vm_compute; reflexivity|]; split; reflexivity|vm_compute; reflexivity]. Qed.
Example C95_ex_only_group : exists D, draw_compressed (fun l => l) ex50 true None ex50_deps = Ok D /\ d_filled D = [] /\ d_labelled D = [0; 1; 2; 3; 4].
Proof. eexists. split; [vm_compute; reflexivity|]. split; reflexivity. Qed.

Print Assumptions C95_compress.
Print Assumptions C95_only_group.
Print Assumptions C95_always_refuted.
