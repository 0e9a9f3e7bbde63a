(** Proofs about LayoutRules.v: the dependencies of a ruleset can be drawn. *)
From Coq Require Import QArith.
From Coq Require Import Lia Permutation Sorted ZifyBool ZifyNat.
From Verif Require Import SpecBdd Deps SpecDeps Normalise LayoutProofs SpecLayout.
From Verif Require Export LayoutRules.
Local Open Scope list_scope.
Local Open Scope nat_scope.

Lemma first_only_in l x : In x (first_only l) <-> In x l.
Proof.
  induction l as [|y l IH]; cbn [first_only]; [tauto|]. cbn [In]. rewrite filter_In, IH. destruct (Nat.eqb_spec y x) as [->|N]; cbn; intuition congruence.
Qed.
Lemma first_only_nodup l : NoDup (first_only l).
Proof.
  induction l as [|y l IH]; cbn [first_only]; constructor; [|now apply NoDup_filter]. intros H. apply filter_In in H as [_ H]. now rewrite Nat.eqb_refl in H.
Qed.
Lemma graph_nodes_in rules e x : In x (graph_nodes rules e) <-> exists a b, In (a, b) e /\ (x = a \/ x = b).
Proof.
  unfold graph_nodes. rewrite first_only_in, in_flat_map. split.
  - intros ([a b] & H & X). exists a, b. apply in_app_iff in H. rewrite !filter_In in H. split; [tauto|]. cbn in X. intuition.
  - intros (a & b & H & X). exists (a, b). split; [|cbn; intuition]. apply in_app_iff. rewrite !filter_In. set (s := Z.eqb _ _). destruct s; auto.
Qed.
Lemma number_groups_ge gk : forall l n prev x g, In (x, g) (number_groups gk n prev l) -> (n <= g)%Z /\ In x l.
Proof.
  induction l as [|y l IH]; intros n prev x g H; cbn [number_groups] in H; [destruct H|].
  set (n' := group_number n prev (gk y)) in *.
  assert (Hn : (n <= n')%Z) by (unfold n', group_number; destruct prev as [k|]; [destruct (_ && _)|]; lia).
  destruct H as [H|H]; [injection H as -> <-; split; [auto|now left]|]. apply IH in H as [H1 H2]. split; [lia|now right].
Qed.
Lemma number_groups_mono key gk : forall l n prev a b g h, StronglySorted (kle key) l -> klt key a b ->
  In (a, g) (number_groups gk n prev l) -> In (b, h) (number_groups gk n prev l) -> (g <= h)%Z.
Proof.
  induction l as [|y l IH]; intros n prev a b g h Sl K Ha Hb; [destruct Ha|]. cbn [number_groups] in Ha, Hb.
  set (n' := group_number n prev (gk y)) in *.
  inversion Sl as [|y' l' S1 F]; subst y' l'. rewrite Forall_forall in F.
  destruct Ha as [Ha|Ha], Hb as [Hb|Hb].
  - injection Ha as -> <-. injection Hb as -> <-. lia.
  - injection Ha as -> <-. now apply number_groups_ge in Hb.
  - injection Hb as -> <-. apply number_groups_ge in Ha as [_ Ha]. specialize (F a Ha). unfold kle, klt in *. lia.
  - eapply IH; eauto.
Qed.
Lemma number_groups_has gk x : forall l n prev, In x l -> exists g, In (x, g) (number_groups gk n prev l).
Proof.
  induction l as [|y l IH]; intros n prev H; [destruct H|]. cbn [number_groups]. destruct H as [->|H]; [eexists; left; reflexivity|].
  edestruct IH as (g & G); [exact H|]. exists g. right. exact G.
Qed.
Lemma group_attr_some l x g : group_attr l x = Some g -> In (x, g) l.
Proof.
  unfold group_attr. destruct (find _ l) as [[y h]|] eqn:E; [|discriminate]. intros [= <-]. apply find_some in E as [E1 E2]. cbn [fst snd] in *. apply Nat.eqb_eq in E2. now subst.
Qed.
Lemma group_attr_has l x : (exists g, In (x, g) l) -> group_attr l x <> None.
Proof.
  intros (g & H). unfold group_attr. destruct (find _ l) eqn:E; [discriminate|]. apply find_none with (x := (x, g)) in E; [|auto]. cbn in E. now rewrite Nat.eqb_refl in E.
Qed.

(** edges lead to rules with a greater key *)
Definition downward (rules : list rule) (e : list (nat * nat)) : Prop :=
  forall a b, In (a, b) e -> a < List.length rules /\ b < List.length rules /\ sooner (rule_key rules) a b.
Lemma draw_drawable rules e g : e <> [] -> downward rules e -> drawable e (rule_key rules) (graph_groups rules (graph_nodes rules e) g) (graph_nodes rules e).
Proof.
  intros Ne D. set (nodes := graph_nodes rules e). set (ordered := filter (fun i => nmem i nodes) (sort_nodes (rule_key rules) (seq 0 (List.length rules)))).
  assert (Ho : forall x, In x nodes -> In x ordered).
  { intros x Hx. apply filter_In. split; [|now apply nmem_in]. eapply Permutation_in; [apply Permutation_sym, sort_nodes_perm|]. apply in_seq.
    apply graph_nodes_in in Hx as (a & b & He & Ex). apply D in He. destruct Ex as [->| ->]; lia. }
  assert (So : StronglySorted (kle (rule_key rules)) ordered).
  { assert (X := sort_nodes_sorted (rule_key rules) (fun _ => None) (seq 0 (List.length rules))). unfold ordered. clear Ho. clearbody nodes. clear ordered D Ne. induction X as [|a l S1 IH F]; cbn [filter]; [constructor|].
    destruct (nmem a nodes); [|auto]. constructor; [auto|]. apply Forall_forall. rewrite Forall_forall in F. intros y Hy. apply filter_In in Hy as [Hy _]. auto. }
  assert (Ed : forall a b, In (a, b) e -> In a nodes /\ In b nodes) by (intros a b H; split; apply graph_nodes_in; eauto 6).
  assert (Mono : forall gk, (forall a b, In (a, b) e -> ordered_edge (rule_key rules) (group_attr (number_groups gk 1 None ordered)) a b)).
  { intros gk a b H. destruct (D a b H) as (_ & _ & K). unfold ordered_edge.
    destruct (group_attr (number_groups gk 1 None ordered) a) as [x|] eqn:Ea; [|exact K]. destruct (group_attr (number_groups gk 1 None ordered) b) as [y|] eqn:Eb; [|exact K]. apply group_attr_some in Ea, Eb.
    assert (X : (x <= y)%Z) by (eapply number_groups_mono; [exact So|exact K|exact Ea|exact Eb]). destruct (Z_lt_ge_dec x y); [auto|right; split; [lia|auto]]. }
  split; [|split; [apply first_only_nodup|split]].
  - destruct e as [|[a b] e']; [congruence|]. intros E. destruct (Ed a b) as [X _]; [now left|]. rewrite E in X. destruct X.
  - destruct g; [right; reflexivity|left|left]; intros x Hx; cbn [graph_groups]; apply group_attr_has, number_groups_has; now apply Ho.
  - intros a b H. destruct (Ed a b H) as (A & B). split; [auto|]. split; [auto|]. destruct g; cbn [graph_groups]; [|now apply Mono|now apply Mono].
    apply (D a b H).
Qed.
(** the dependencies of rulesets with forward gotos lead downwards *)
Lemma deps_downward rules e : (forall R t, In R rules -> goto_table (inst (rcore R)) = Some t -> table (rcore R) < t)%Z ->
  (forall i j, In (i, j) e -> (exists p, falls rules i j p) \/ (exists p, enters rules i j p)) -> downward rules e.
Proof.
  intros Hg H a b Hab. unfold sooner, rule_key. apply H in Hab as [(p & R & S0 & HR & HS & Ht & Hp & _)|(p & R & S0 & t & q & HR & HS & Hgo & Ht & _)]; rewrite HR, HS; unfold sort_key; cbn [fst snd].
  - split; [apply nth_error_Some; congruence|]. split; [apply nth_error_Some; congruence|]. right. lia.
  - split; [apply nth_error_Some; congruence|]. split; [apply nth_error_Some; congruence|]. left. specialize (Hg R t (nth_error_In _ _ HR) Hgo). lia.
Qed.
Lemma drop_miss_in rules e a b : In (a, b) (drop_miss rules e) -> In (a, b) e.
Proof. intros H. apply filter_In in H. apply H. Qed.
