(** Theorems for C96: drawing a compressed routing table. *)
From Coq Require Import QArith.
From Coq Require Import Lia Permutation Sorted ZifyBool ZifyNat.
From Verif Require Import SpecBdd MatchProofs MergeProofs NormaliseProofs PropMerge DepsProofs DepsPrefixProofs PropDepsPrefix SpecLayout LayoutCompress LayoutFib Fib SpecMisc MiscProofs PropMisc
  ToolProofs SimilarProofs SpecLayoutCompress SpecCompressTool CompressToolProofs PropCompress PropCompressTotal CompressFib PropLayoutCompress.
Local Open Scope list_scope.
Local Open Scope nat_scope.
Local Opaque NB WC_FULLWC layout oxm_fields registry_init.

Section Table.
  Context (rules : list rule) (P : list (Z * Z)) (HP : prefix_table rules P).
  Lemma prefix_facts i n l : nth_error P i = Some (n, l) -> (0 <= l <= 32 /\ 0 <= n < 2 ^ 32 /\ n mod 2 ^ (32 - l) = 0)%Z.
  Proof. intros H. destruct (prefix_at rules P (proj1 HP) i (n, l) H) as (R & _ & (A & _ & B & C & _)). auto. Qed.
  Lemma default_at : exists k, nth_error P k = Some (0, 0)%Z.
  Proof. destruct HP as (_ & _ & H). now apply In_nth_error in H. Qed.
  Lemma lies_default i k : i < List.length P -> nth_error P k = Some (0, 0)%Z -> i = k \/ lies_in P i k.
  Proof.
    intros Hi Hk. destruct (nth_error P i) as [[n l]|] eqn:E; [|apply nth_error_None in E; lia]. destruct (prefix_facts i n l E) as (A & B & C).
    destruct (Z.eq_dec l 0) as [->|Nl].
    - left. rewrite Z.mod_small in C by (change (32 - 0)%Z with 32%Z; lia). subst n. destruct HP as (_ & N & _). apply (proj1 (NoDup_nth_error P) N); [exact Hi|congruence].
    - right. exists n, l, 0%Z, 0%Z. split; [exact E|]. split; [exact Hk|]. split; [lia|]. change (32 - 0)%Z with 32%Z. rewrite !Z.div_small by lia. reflexivity.
  Qed.
  (** the longest of the enclosing prefixes *)
  Lemma longest_exists i k : lies_in P i k -> exists j, longest P i j.
  Proof.
    intros (n & l & n' & l' & Hi & Hk & En).
    assert (Len : forall j m a, nth_error P j = Some (m, a) -> (0 <= a <= 32)%Z) by (intros j m a H; now apply prefix_facts in H).
    assert (G : forall b j m a, (32 - a < Z.of_nat b)%Z -> nth_error P j = Some (m, a) -> lies_in P i j -> exists j', longest P i j').
    { induction b as [|b IH]; intros j m a Hb Hj Lj; [specialize (Len j m a Hj); lia|].
      destruct (existsb (fun q => (a <? snd q)%Z && (snd q <? l)%Z && (n / 2 ^ (32 - snd q) =? fst q / 2 ^ (32 - snd q))%Z) P) eqn:Ex.
      - apply existsb_exists in Ex as ([m' a'] & Hq & X). cbn [fst snd] in X. apply In_nth_error in Hq as (j' & Hj').
        apply (IH j' m' a'); [lia|exact Hj'|]. exists n, l, m', a'. split; [exact Hi|]. split; [exact Hj'|]. split; [lia|]. lia.
      - exists j. split; [exact Lj|]. intros k0 [m0 a0] x y Lk Hk0 Hj2. assert (E2 : (x, y) = (m, a)) by congruence. injection E2 as -> ->. cbn [snd].
        destruct (Z_le_gt_dec a0 a) as [L|L]; [exact L|]. exfalso.
        destruct Lk as (n1 & l1 & n2 & l2 & B1 & B2 & B3 & B4). assert (E3 : (n1, l1) = (n, l)) by congruence. injection E3 as -> ->. assert (E4 : (n2, l2) = (m0, a0)) by congruence. injection E4 as -> ->.
        assert (X : existsb (fun q => (a <? snd q)%Z && (snd q <? l)%Z && (n / 2 ^ (32 - snd q) =? fst q / 2 ^ (32 - snd q))%Z) P = true); [|congruence].
        apply existsb_exists. exists (m0, a0). split; [eapply nth_error_In; eauto|]. cbn [fst snd]. rewrite B4, Z.eqb_refl. lia. }
    apply (G 33 k n' l'); [specialize (Len k n' l' Hk); lia|exact Hk|]. exists n, l, n', l'. auto.
  Qed.
  Lemma longest_default k : nth_error P k = Some (0, 0)%Z -> forall i, i < List.length P -> i <> k -> exists j, longest P j k.
  Proof.
    intros Hk. assert (G : forall b i n l, nth_error P i = Some (n, l) -> (l < Z.of_nat b)%Z -> i <> k -> exists j, longest P j k).
    { induction b as [|b IH]; intros i n l Hi Hb Ne; [apply prefix_facts in Hi; lia|].
      destruct (lies_default i k) as [X|X]; [apply nth_error_Some; congruence|exact Hk|congruence|].
      destruct (longest_exists i k X) as (j & Lj). destruct (Nat.eq_dec j k) as [->|Nj]; [eauto|].
      destruct Lj as ((n1 & l1 & n2 & l2 & B1 & B2 & B3 & _) & _). assert (E : (n1, l1) = (n, l)) by congruence. injection E as -> ->. apply (IH j n2 l2 B2); [lia|exact Nj]. }
    intros i Hi Ne. destruct (nth_error P i) as [[n l]|] eqn:E; [|apply nth_error_None in E; lia]. apply (G 33 i n l E); [apply prefix_facts in E; lia|exact Ne].
  Qed.
  Lemma table_length : List.length P = List.length rules.
  Proof. destruct HP as (F & _). clear HP. induction F; cbn [List.length]; congruence. Qed.
  (** no rule of a routing table is isolated *)
  Lemma no_isolated deps (direct : bool) : 2 <= List.length rules -> (forall i j, In (i, j) deps <-> (if direct then longest P else lies_in P) i j) ->
    forall i, i < List.length rules -> ~ isolated deps i.
  Proof.
    intros L2 Hd i Hi Is. rewrite <- table_length in *. destruct default_at as (k & Hk).
    assert (Lo : forall a b, longest P a b -> In (a, b) deps) by (intros a b H; apply Hd; destruct direct; [exact H|apply H]).
    destruct (lies_default i k Hi Hk) as [->|X].
    - assert (exists i0, i0 < List.length P /\ i0 <> k) as (i0 & A & B) by (destruct k; [exists 1|exists 0]; lia).
      destruct (longest_default k Hk i0 A B) as (j & Lj). apply Lo in Lj. destruct (Is j k Lj). congruence.
    - destruct (longest_exists i k X) as (j & Lj). apply Lo in Lj. destruct (Is i j Lj). congruence.
  Qed.
End Table.

(** ** C96 *)
(** A routing table of two or more distinct routes with their host bits zero, among them the
    default route, is drawn with --compress, whatever the dependencies shown, the groups and
    --only-group: every route is a node, an edge leads down from each prefix to the longest that
    encloses it (or to all that do), and one route of each group is filled. *)
Theorem C96_routing_table : forall ord edge_ord reg rs lines direct only_group group,
  (forall l, Permutation (ord l) l) -> (forall l, Permutation (edge_ord l) l) -> reg_ok reg ->
  Forall2 route_line rs lines -> (forall r, In r rs -> weigh 256 (ro_octets r) mod 2 ^ (32 - ro_len r) = 0)%Z ->
  NoDup (map prefix_of rs) -> In (0, 0)%Z (map prefix_of rs) -> 2 <= List.length rs ->
  exists loaded P edges D d, ruleset_from_fib lines reg = (reg, Ok loaded) /\ graph_fib ord edge_ord direct false only_group group loaded = Ok D /\
    Permutation P (map prefix_of rs) /\ Forall2 (fun R q => ipv4_prefix R (fst q) (snd q)) (sort_ruleset loaded) P /\
    (forall i j, In (i, j) edges <-> (if direct then longest P else lies_in P) i j) /\
    d_labelled D = seq 0 (List.length rs) /\ drawing edges 1 (seq 0 (List.length rs)) (d_pos D) /\ coarsest (sort_ruleset loaded) edges d /\
    (only_group = true -> d_filled D = []) /\
    (only_group = false -> forall x, x < List.length rs -> exists! g, In g (d_filled D) /\ together d g x) /\
    (group = None -> forall x y, x < List.length rs -> y < List.length rs -> (d_group D x = d_group D y <-> together d x y)).
Proof.
  intros ord edge_ord reg rs lines direct og group Ho He Hreg Hl Can ND I0 L2.
  destruct (fib_rules_prefix reg rs lines Hreg Hl Can) as (loaded & El & Fp & Hr). set (T := sort_ruleset loaded).
  assert (Len : List.length loaded = List.length rs) by (rewrite <- (map_length prefix_of rs); clear - Fp; induction Fp; cbn [List.length]; congruence).
  assert (Pt : Permutation (map rcore T) (map rcore loaded)) by (apply Permutation_map, sort_perm).
  assert (LT : List.length T = List.length rs) by (rewrite <- Len; apply Permutation_length, sort_perm).
  destruct (cores_prefix T loaded _ Pt Fp) as (P & PP & FP).
  assert (HP : prefix_table T P).
  { split; [exact FP|]. split; [eapply Permutation_NoDup; [apply Permutation_sym, PP|exact ND]|]. eapply Permutation_in; [apply Permutation_sym, PP|exact I0]. }
  assert (HT : forall R, In R T -> fib_core reg (rcore R)).
  { intros R HR. apply (proj1 (in_sort _ _)) in HR. exact (Hr R HR). }
  assert (Fl := fib_flat reg T HT). assert (Mk : matches_ok reg T) by (intros R HR; apply (HT R HR)).
  assert (NeT : T <> []) by (intros X; rewrite X in LT; cbn in LT; lia).
  assert (Ok0 : forall R, In R T -> rule_ok reg R) by (intros R HR; apply fib_rule_ok, HT, HR).
  assert (Deps : exists deps, graph_prefix_deps edge_ord direct T = Ok deps /\ (forall i j, In (i, j) deps <-> (if direct then longest P else lies_in P) i j)).
  { unfold graph_prefix_deps. destruct direct.
    - destruct (C46_direct 2 1 reg T P ltac:(lia) eq_refl ltac:(lia) Mk HP) as (dd & Ed & _ & Kd & _). rewrite Ed. cbn [rbind]. eauto.
    - destruct (C46_indirect reg T P Mk HP) as (s & Es & _ & Ks). rewrite Es. cbn [rbind]. eexists. split; [reflexivity|]. intros i j. rewrite <- Ks.
      split; intros X; [exact (Permutation_in _ (He _) X)|exact (Permutation_in _ (Permutation_sym (He _)) X)]. }
  destruct Deps as (deps & Ed & Kd).
  assert (Fw : forward T deps). { apply (prefix_forward T P deps Fl HP). intros i j H. apply Kd in H. destruct direct; [apply H|exact H]. }
  assert (Ch : chained deps). { destruct direct; [eapply longest_chained|eapply lies_chained]; eauto. }
  assert (NI := no_isolated T P HP deps direct ltac:(rewrite LT; exact L2) Kd).
  assert (NeD : deps <> []). { intros ->. apply (NI 0); [rewrite LT; lia|]. intros a b []. }
  assert (Nm : forall R R', In R T -> In R' T -> ~ mixed R R') by (intros R R' HR HR'; eapply fib_not_mixed; eauto).
  assert (Nodes : forall nodes D, (forall x, In x nodes <-> ~ isolated deps x) -> StronglySorted lt (d_labelled D) -> (forall x, In x (d_labelled D) <-> In x nodes) ->
    drawing deps 1 nodes (d_pos D) -> d_labelled D = seq 0 (List.length rs) /\ drawing deps 1 (seq 0 (List.length rs)) (d_pos D) /\ forall x, In x nodes <-> x < List.length rs).
  { intros nodes D N1 N2 N3 Dr.
    assert (Nx : forall x, In x nodes <-> x < List.length rs).
    { intros x. rewrite N1. split; [|intros H; apply NI; now rewrite LT]. intros H. destruct (Nat.lt_ge_cases x (List.length rs)) as [L|L]; [exact L|]. elim H.
      intros a b Hab. apply (forward_within T deps Fw) in Hab. rewrite LT in Hab. lia. }
    split; [|split; [|exact Nx]].
    - assert (U : forall l l', StronglySorted lt l -> StronglySorted lt l' -> (forall x : nat, In x l <-> In x l') -> l = l').
      { clear. induction l as [|x l IH]; intros [|y l'] S1 S2 H; [reflexivity|destruct (proj2 (H y)); now left|destruct (proj1 (H x)); now left|].
        inversion S1 as [|? ? S3 F1]; inversion S2 as [|? ? S4 F2]; subst. rewrite Forall_forall in F1, F2.
        assert (x = y). { destruct (proj1 (H x) (or_introl eq_refl)) as [E|E]; [auto|]. destruct (proj2 (H y) (or_introl eq_refl)) as [E'|E']; [auto|]. specialize (F1 y E'). specialize (F2 x E). lia. }
        subst y. f_equal. apply IH; auto. intros z. specialize (H z). cbn [In] in H. split; intros X.
        - destruct (proj1 H (or_intror X)) as [E|E]; [subst; specialize (F1 z X); lia|exact E].
        - destruct (proj2 H (or_intror X)) as [E|E]; [subst; specialize (F2 z X); lia|exact E]. }
      apply U; [exact N2|apply seq_sorted|]. intros x. rewrite N3, Nx, in_seq. lia.
    - destruct Dr as (A1 & A2 & A3). split; [exact A1|]. split; [|exact A3]. intros x. rewrite A2, Nx, in_seq. lia. }
  assert (EG : graph_fib ord edge_ord direct false og group loaded = draw_compressed ord T og group deps) by (unfold graph_fib; fold T; rewrite Ed; reflexivity).
  destruct og.
  - destruct (create_cases reg T deps Ok0 (forward_within T deps Fw)) as [(d & m & Ec & _ & _ & Co)|(_ & R & R' & HR & HR' & Mx)]; [|elim (Nm R R' HR HR' Mx)].
    destruct (C95_only_group ord reg T deps group d m Ok0 Fw NeD Ec) as [((i & Hi & Is) & _)|(_ & D & E & (nodes & N1 & N2 & N3 & Dr & _ & Fi & G))]; [elim (NI i Hi Is)|].
    destruct (Nodes nodes D N1 N2 N3 Dr) as (R1 & R2 & R3).
    exists loaded, P, deps, D, d. split; [exact El|]. split; [now rewrite EG|]. split; [exact PP|]. split; [exact FP|]. split; [exact Kd|]. split; [exact R1|]. split; [exact R2|]. split; [exact Co|].
    split; [intros _; destruct (d_filled D) as [|x l]; [reflexivity|]; destruct (proj1 (Fi x) (or_introl eq_refl)) as [[] _]|]. split; [discriminate|].
    intros Eg x y Hx Hy. destruct (G Eg) as (G1 & _). apply G1; now apply R3.
  - destruct (C90_chained reg T deps NeT Ok0 Nm Fw Ch) as (res & d & Ec). specialize (Ec ord).
    destruct (C95_compress ord reg T deps group res d Ho Ok0 Fw NeD Ec) as [((i & j & R & R' & _ & Hi & _ & _ & Is & _) & _)|(_ & D & E & (nodes & N1 & N2 & N3 & Dr & _ & Fi & G) & U)].
    { elim (NI i); [apply nth_error_Some; congruence|exact Is]. }
    destruct (Nodes nodes D N1 N2 N3 Dr) as (R1 & R2 & R3). destruct (compress_cases ord reg T deps res d Ho Ok0 (forward_within T deps Fw) Ec) as (m & _ & Co & _).
    exists loaded, P, deps, D, d. split; [exact El|]. split; [now rewrite EG|]. split; [exact PP|]. split; [exact FP|]. split; [exact Kd|]. split; [exact R1|]. split; [exact R2|]. split; [exact Co|].
    split; [discriminate|]. split; [intros _ x Hx; apply U, N1, R3, Hx|].
    intros Eg x y Hx Hy. destruct (G Eg) as (G1 & _). apply G1; now apply R3.
Qed.

(** ** Examples *)
Local Open Scope string_scope.
Local Open Scope Z_scope.
(** a prefix within another, and two that lie in the default route only *)
Definition lines96 := (fib_lines ++ map T ["* 1.0.0.0/8 10.9.9.1"; "* 0.0.0.0/8 10.9.9.2"])%list.
Definition routes96 := (fib_routes ++ [Route [1; 0; 0; 0] 8 (T "10.9.9.1"); Route [0; 0; 0; 0] 8 (T "10.9.9.2")])%list.
Lemma lines96_ok : Forall2 route_line routes96 lines96.
Proof.
  apply Forall2_app; [exact fib_lines_ok|]. constructor; [|constructor; [|constructor]].
  - exists (T "*"), [T "1"; T "0"; T "0"; T "0"], (T "8"), []. split; [|split; [constructor; [apply num_1|repeat (constructor; [apply num_0|]); constructor]|split; [reflexivity|split; [repeat constructor; cbn; lia|split; [apply num_8|cbn; lia]]]]].
    apply (sp_word [] (T "*") " "%char _ (T "1.0.0.0/8 10.9.9.1")); [blanks|discriminate|blanks|blanks|].
    apply (sp_word [] (T "1.0.0.0/8") " "%char _ (T "10.9.9.1")); [blanks|discriminate|blanks|blanks|].
    apply (sp_last [] (T "10.9.9.1") []); [blanks|discriminate|blanks|blanks].
  - exists (T "*"), [T "0"; T "0"; T "0"; T "0"], (T "8"), []. split; [|split; [repeat (constructor; [apply num_0|]); constructor|split; [reflexivity|split; [repeat constructor; cbn; lia|split; [apply num_8|cbn; lia]]]]].
    apply (sp_word [] (T "*") " "%char _ (T "0.0.0.0/8 10.9.9.2")); [blanks|discriminate|blanks|blanks|].
    apply (sp_word [] (T "0.0.0.0/8") " "%char _ (T "10.9.9.2")); [blanks|discriminate|blanks|blanks|].
    apply (sp_last [] (T "10.9.9.2") []); [blanks|discriminate|blanks|blanks].
Qed.
Lemma routes96_ok : (forall r, In r routes96 -> weigh 256 (ro_octets r) mod 2 ^ (32 - ro_len r) = 0) /\ NoDup (map prefix_of routes96) /\ In (0, 0) (map prefix_of routes96) /\ (2 <= List.length routes96)%nat.
Proof.
  split; [intros r H; repeat (destruct H as [<-|H]; [vm_compute; reflexivity|]); destruct H|].
  assert (E : map prefix_of routes96 = [(0, 0); (167772160, 8); (167837696, 16); (16777216, 8); (0, 8)]) by (vm_compute; reflexivity). rewrite E.
  split; [repeat constructor; cbn; intuition discriminate|]. split; [now left|cbn; lia].
Qed.
Definition loaded96 : list rule := match snd (ruleset_from_fib lines96 registry_init) with Ok l => l | Err _ => [] end.
Example C96_ex_used : exists loaded P edges D d, ruleset_from_fib lines96 registry_init = (registry_init, Ok loaded) /\ graph_fib (fun l => l) (fun l => l) true false false None loaded = Ok D /\
  Permutation P (map prefix_of routes96) /\ (forall i j, In (i, j) edges <-> longest P i j) /\ drawing edges 1 (seq 0 5) (d_pos D) /\ coarsest (sort_ruleset loaded) edges d.
Proof.
  destruct routes96_ok as (A & B & C & L).
  destruct (C96_routing_table (fun l => l) (fun l => l) registry_init routes96 lines96 true false None (fun l => Permutation_refl l) (fun l => Permutation_refl l) reg_init_ok lines96_ok A B C L)
    as (loaded & P & edges & D & d & E1 & E2 & E3 & _ & E5 & _ & E7 & E8 & _).
  exists loaded, P, edges, D, d. do 5 (split; [assumption|]). exact E8.
Qed.
(** The same table with --no-table-miss: 1.0.0.0/8 and 0.0.0.0/8 lose their only dependency. *)
Theorem C96_no_table_miss_refuted : exists reg rs lines loaded, reg_ok reg /\ Forall2 route_line rs lines /\
  (forall r, In r rs -> weigh 256 (ro_octets r) mod 2 ^ (32 - ro_len r) = 0) /\ NoDup (map prefix_of rs) /\ In (0, 0) (map prefix_of rs) /\ (2 <= List.length rs)%nat /\
  ruleset_from_fib lines reg = (reg, Ok loaded) /\ graph_fib (fun l => l) (fun l => l) false true false None loaded = Err ValueError.
Proof.
  destruct C96_ex_used as (loaded & _ & _ & _ & _ & E & _). destruct routes96_ok as (A & B & C & L).
  exists registry_init, routes96, lines96, loaded. split; [exact reg_init_ok|]. split; [exact lines96_ok|]. do 5 (split; [assumption|]).
  assert (X : loaded = loaded96) by (unfold loaded96; now rewrite E). rewrite X. vm_compute. reflexivity.
Qed.

Print Assumptions C96_routing_table.
Print Assumptions C96_no_table_miss_refuted.
