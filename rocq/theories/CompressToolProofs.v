(** Proofs about the command compress_ruleset. *)
From Coq Require Import Lia Permutation Sorted.
From Coq Require Import ZifyBool ZifyNat.
From Verif Require Import SpecBdd FormatProofs MortonProofs WildcardProofs MatchProofs MergeProofs ActionProofs SingleTableProofs NormaliseProofs PropNormalise PropDepsMulti PropDepsInd PropDepsPrefix
  DepsProofs DepsTable DepsAny DepsMultiProofs DepsIndProofs DepsPrefixProofs SimilarProofs PropCompress Fib SpecMisc MiscProofs ToolProofs CompressTool SpecCompressTool.
Local Open Scope string_scope.
Local Open Scope list_scope.
Local Open Scope Z_scope.
Local Opaque NB WC_FULLWC layout oxm_fields registry_init.

(** ** Compression by given dependencies *)
Lemma stand_for_of ord r rules deps res d : (forall l, Permutation (ord l) l) -> (forall R, In R rules -> rule_ok r R) -> forward rules deps ->
  compress_deps ord rules deps = Ok (res, d) -> stand_for rules (fun i j => In (i, j) deps) res /\ (List.length res <= List.length rules)%nat.
Proof.
  intros Ho Hr Hf E. destruct (C50_representatives ord r rules deps res d Ho Hr (forward_within _ _ Hf) E) as (G & [C1 C2] & P & U & _).
  assert (D := C69_dependencies ord r rules deps res d Ho Hr Hf E). split.
  - exists d. split; [exact G|]. split; [exact P|]. split; [exact U|]. split; [exact C1|]. split; [exact C2|exact D].
  - rewrite (Permutation_length P). destruct G as (G1 & G2 & G3).
    rewrite <- (seq_length (List.length rules) 0), <- (Permutation_length G1). clear - G3.
    induction d as [|[g l] d IH]; [apply le_n|]. cbn [map List.concat snd fst List.length]. rewrite app_length.
    destruct (G3 g l (or_introl eq_refl)) as (t & ->). cbn [List.length]. assert (X : (List.length (map fst d) <= List.length (List.concat (map snd d)))%nat) by (apply IH; intros; apply G3; now right). lia.
Qed.
Lemma interchangeable_iff rules (P Q : nat -> nat -> Prop) T : (forall i j, P i j <-> Q i j) -> interchangeable rules P T -> interchangeable rules Q T.
Proof.
  intros H I i j HT. destruct (I i j HT) as (A & B & C & D & E). split; [exact A|].
  split; [|split; [|split]]; intros k K; apply H in K; [apply B in K|apply C in K|apply D in K|apply E in K]; destruct K as (k' & K1 & K2); exists k'; (split; [now apply H|exact K2]).
Qed.
Lemma stand_for_iff rules (P Q : nat -> nat -> Prop) res : (forall i j, P i j <-> Q i j) -> stand_for rules P res -> stand_for rules Q res.
Proof.
  intros H (d & A & B & C & D & D' & E). exists d. split; [exact A|]. split; [exact B|]. split; [exact C|].
  split; [eapply interchangeable_iff; [exact H|exact D]|]. split; [intros T HT; apply D'; eapply interchangeable_iff; [|exact HT]; intros i j; symmetry; apply H|].
  intros a b Ha Hb. rewrite <- H, (E a b Ha Hb). split; intros (x & y & X & Y & Z0); exists x, y; (split; [exact X|]; split; [exact Y|]; now apply H).
Qed.

(** ** A run of the command *)
Section Run.
  Context {F : Type} (SHIFT one : Z) (ord : list nat -> list nat) (edge_ord : list edge -> list edge) (load : string -> st (list rule)) (write : writer -> list rule -> result F).
  Notation main := (compress_main SHIFT one ord edge_ord load write).
  Lemma run_inv o reg reg' run : main o reg = (reg', Ok run) -> exists r1 loaded r2 S r3 deps d,
    load (co_format o) reg = (r1, Ok loaded) /\ prepare o loaded r1 = (r2, Ok S) /\ tool_deps SHIFT one ord edge_ord o (sort_ruleset S) r2 = (r3, Ok deps) /\
    compress_deps ord (sort_ruleset S) deps = Ok (cr_kept run, d) /\
    cr_loaded run = List.length loaded /\ cr_table run = (if co_single o then Some (List.length S) else None) /\ cr_ruleset run = sort_ruleset S /\
    cr_from_to run = (List.length S, List.length (cr_kept run)) /\
    (if co_output o then save_ruleset write (sort_ruleset S) (co_output_format o) else Ok None) = Ok (cr_file run) /\
    exists r4, last_size o (pick (sort_ruleset S) (cr_kept run)) r3 = (r4, Ok (cr_last run)).
  Proof.
    unfold compress_main, sbind. destruct (load (co_format o) reg) as [r1 [loaded|e]] eqn:E1; [|discriminate]. destruct (prepare o loaded r1) as [r2 [S|e]] eqn:E2; [|discriminate].
    destruct (tool_deps _ _ _ _ _ _ r2) as [r3 [deps|e]] eqn:E3; [|discriminate]. unfold slift. destruct (compress_deps ord (sort_ruleset S) deps) as [[res d]|e] eqn:E4; [|discriminate]. cbn [fst].
    destruct (if co_output o then save_ruleset write (sort_ruleset S) (co_output_format o) else Ok None) as [file|e] eqn:E5; [|discriminate].
    destruct (last_size o (pick (sort_ruleset S) res) r3) as [r4 [l|e]] eqn:E6; [|discriminate]. unfold sret. intros [= _ <-].
    exists r1, loaded, r2, S, r3, deps, d. cbn [cr_kept cr_loaded cr_table cr_ruleset cr_from_to cr_file cr_last].
    split; [auto|]. split; [auto|]. split; [exact E3|]. split; [exact E4|]. do 3 (split; [reflexivity|]).
    split; [f_equal; apply Permutation_length, sort_perm|]. split; [exact E5|]. eauto.
  Qed.
End Run.

(** ** The builders *)
Lemma runs_post {A} (c : st A) r post r' a : runs c r post -> c r = (r', Ok a) -> post r' a /\ reg_ok r'.
Proof. intros (r1 & a1 & E & R & _ & P) E'. rewrite E in E'. injection E' as <- <-. auto. Qed.
Lemma indirect_general SHIFT one edge_ord u rs r r' e : indirect_deps SHIFT one edge_ord false u rs r = (r', Ok e) ->
  exists e0, ind_ruleset_deps SHIFT one (match u with Some true => true | _ => false end) rs r = (r', Ok e0) /\ e = edge_ord e0.
Proof.
  unfold indirect_deps, ind_ruleset_deps, indirect_build, sbind. destruct u as [[]|]; cbn beta iota zeta.
  - destruct (slift (attach SHIFT one (objects rs)) r) as [r1 [x|x]]; [|discriminate]. destruct (ind_goto_edges (objects rs) r1) as [r2 [y|y]]; [|discriminate].
    match goal with |- context [sfold ?f ?l ?a r2] => destruct (sfold f l a r2) as [r3 [z|z]] eqn:Z0 end; [|discriminate]. unfold sret. intros [= <- <-]. exists z. auto.
  - destruct (sret [] r) as [r1 [x|x]]; [|discriminate]. destruct (ind_goto_edges (objects rs) r1) as [r2 [y|y]]; [|discriminate].
    match goal with |- context [sfold ?f ?l ?a r2] => destruct (sfold f l a r2) as [r3 [z|z]] eqn:Z0 end; [|discriminate]. unfold sret. intros [= <- <-]. exists z. auto.
  - destruct (sret [] r) as [r1 [x|x]]; [|discriminate]. destruct (ind_goto_edges (objects rs) r1) as [r2 [y|y]]; [|discriminate].
    match goal with |- context [sfold ?f ?l ?a r2] => destruct (sfold f l a r2) as [r3 [z|z]] eqn:Z0 end; [|discriminate]. unfold sret. intros [= <- <-]. exists z. auto.
Qed.

(** ** Dependencies lead forward *)
Lemma indirect_forward rules : (forall R t, In R rules -> goto_table (inst (rcore R)) = Some t -> table (rcore R) < t) ->
  forall deps, (forall i j, In (i, j) deps -> indirect_dep rules i j) -> forward rules deps.
Proof.
  intros Hg deps H a b Hab. destruct (H a b Hab) as (p & [(R & S0 & A1 & A2 & A3 & A4 & _)|(R & t & q & A1 & _ & A3 & A4)]).
  - exists R, S0. split; [exact A1|]. split; [exact A2|]. right. split; [congruence|exact A4].
  - destruct (arrives_later rules Hg t (inst_header (inst (rcore R)) p) b q A4) as (S0 & B1 & B2).
    exists R, S0. split; [exact A1|]. split; [exact B1|]. left. assert (X := Hg R t (nth_error_In _ _ A1) A3). lia.
Qed.
Lemma direct_forward rules : (forall R t, In R rules -> goto_table (inst (rcore R)) = Some t -> table (rcore R) < t) ->
  forall deps, (forall i j, In (i, j) deps -> direct_dep rules i j) -> forward rules deps.
Proof.
  intros Hg deps H a b Hab. destruct (H a b Hab) as (p & [(R & S0 & A1 & A2 & A3 & A4 & _)|(R & S0 & t & q & A1 & A2 & A3 & A4 & _)]).
  - exists R, S0. split; [exact A1|]. split; [exact A2|]. right. split; [congruence|exact A4].
  - exists R, S0. split; [exact A1|]. split; [exact A2|]. left. assert (X := Hg R t (nth_error_In _ _ A1) A3). lia.
Qed.

(** ** Headerspace without gotos: the same edges *)
Lemma eset_keys {V} (d : list (edge * V)) k v : map fst (eset d k v) = eadd (map fst d) k.
Proof.
  induction d as [|[k' v'] d IH]; [reflexivity|]. cbn [eset map fst]. unfold eadd. cbn [existsb].
  destruct (edge_eqb k' k) eqn:E; cbn [map fst orb]; [reflexivity|]. rewrite IH. unfold eadd. destruct (existsb (fun x => edge_eqb x k) (map fst d)); reflexivity.
Qed.
Lemma esets_keys {V} (d : list (edge * V)) : forall r, map fst (fold_left (fun r x => eset r (fst x) (snd x)) d r) = fold_left eadd (map fst d) (map fst r).
Proof. induction d as [|[k v] d IH]; intros r; [reflexivity|]. cbn [fold_left map fst snd]. now rewrite IH, eset_keys. Qed.
Lemma in_table_keys {V} (build : list (nat * rule) -> st (list (edge * V))) objs ts : forall reaches r,
  sfold (fun reaches t => sdo d <- skeys (build (with_table t objs)); sret (fold_left eadd d reaches)) ts (map fst reaches) r =
  skeys (sfold (fun reaches t => sdo d <- build (with_table t objs); sret (fold_left (fun r x => eset r (fst x) (snd x)) d reaches)) ts reaches) r.
Proof.
  induction ts as [|t ts IH]; intros reaches r; [reflexivity|]. cbn [sfold]. unfold skeys in IH |- *. unfold sbind in IH |- *.
  destruct (build (with_table t objs) r) as [r1 [d|e]]; [|reflexivity]. unfold sret in IH |- *. rewrite <- esets_keys. apply IH.
Qed.
Lemma no_goto_hs ns : (forall R, In R ns -> goto_table (ninst R) = None) -> forall all s r, sfold (goto_deps_hs all) ns s r = (r, Ok s).
Proof. induction ns as [|R ns IH]; intros H all s r; [reflexivity|]. cbn [sfold]. unfold sbind, goto_deps_hs at 1. rewrite H by now left. apply IH. intros; apply H; now right. Qed.
Lemma no_goto_bdd SHIFT one ns : (forall R, In R ns -> goto_table (ninst R) = None) -> forall all s r, sfold (goto_deps SHIFT one all) ns s r = (r, Ok s).
Proof. induction ns as [|R ns IH]; intros H all s r; [reflexivity|]. cbn [sfold]. unfold sbind, goto_deps at 1. rewrite H by now left. apply IH. intros; apply H; now right. Qed.
Lemma bare_no_goto rules : (forall R, In R rules -> goto_table (inst (rcore R)) = None) -> forall R, In R (bare (objects rules)) -> goto_table (ninst R) = None.
Proof. intros H R HR. unfold bare in HR. apply in_map_iff in HR as (x & <- & Hx). apply H. exact (objects_rule _ _ Hx). Qed.
Lemma hs_plain {V} (build : list (nat * rule) -> st (list (edge * V))) rules r : (forall R, In R rules -> goto_table (inst (rcore R)) = None) ->
  build_ruleset_deps_hs (fun objs => skeys (build objs)) rules r =
  skeys (sfold (fun reaches t => sdo d <- build (with_table t (objects rules)); sret (fold_left (fun r x => eset r (fst x) (snd x)) d reaches)) (Deps.tables_of (objects rules)) []) r.
Proof.
  intros H. unfold build_ruleset_deps_hs, sbind at 1. change (@nil edge) with (map fst (@nil (edge * V))) at 1. rewrite (in_table_keys build). 
  destruct (skeys _ r) as [r1 [d|e]]; [|reflexivity]. unfold sbind. rewrite (no_goto_hs _ (bare_no_goto rules H)). reflexivity.
Qed.
Lemma hs_same_edges SHIFT one build rules r r' e : (forall R, In R rules -> goto_table (inst (rcore R)) = None) ->
  build_ruleset_deps SHIFT one build rules r = (r', Ok e) -> build_ruleset_deps_hs (fun objs => skeys (build objs)) rules r = (r', Ok e).
Proof.
  intros H E. rewrite (hs_plain build rules r H). unfold build_ruleset_deps, sbind at 1 in E. unfold slift in E. destruct (attach SHIFT one (objects rules)) as [ns|x] eqn:En; [|discriminate E].
  unfold sbind at 1 in E. unfold skeys, sbind at 1. destruct (sfold _ (Deps.tables_of (objects rules)) [] r) as [r1 [d|x]]; [|discriminate E].
  unfold sbind in E. rewrite no_goto_bdd in E.
  - exact E.
  - intros R HR. unfold attach in En. destruct (objects rules) as [|x t] eqn:Eo; [discriminate En|]. rewrite <- Eo in En.
    assert (G : forall l l', attach_all SHIFT one l = Ok l' -> map (fun n => (nid n, nrule n)) l' = l).
    { clear. induction l as [|x l IH]; intros l' E; cbn [attach_all] in E; [injection E as <-; reflexivity|]. unfold attach_one in E. destruct (rule_wc (snd x)) as [w|]; cbn [rbind] in E; [|discriminate E].
      destruct (attach_all SHIFT one l) as [ns|]; cbn [rbind] in E; [|discriminate E]. injection E as <-. cbn [map nid nrule]. rewrite (IH ns eq_refl). now destruct x. }
    apply H. apply G in En. apply node_in_obj in HR. rewrite En in HR. exact (objects_rule rules (nid R, nrule R) HR).
Qed.

(** ** Prefix tables: one table, no gotos *)
Definition flat (rules : list rule) : Prop := forall R, In R rules -> table (rcore R) = 0 /\ goto_table (inst (rcore R)) = None.
Lemma flat_with rules : flat rules -> with_table 0 (objects rules) = objects rules.
Proof. intros H. unfold with_table. apply filter_all. intros x Hx. destruct (H _ (objects_rule _ _ Hx)) as [-> _]. reflexivity. Qed.
Lemma flat_tables rules : flat rules -> rules <> [] -> Deps.tables_of (objects rules) = [0].
Proof.
  intros H N. unfold Deps.tables_of. assert (E : nodup Z.eq_dec (map (fun x => table (rcore (snd x))) (objects rules)) = [0]); [|now rewrite E].
  assert (A : forall x, In x (objects rules) -> table (rcore (snd x)) = 0) by (intros x Hx; exact (proj1 (H _ (objects_rule _ _ Hx)))).
  assert (B : objects rules <> []) by (destruct rules; [congruence|discriminate]). revert A B. generalize (objects rules). clear. induction l as [|x l IH]; intros A B; [congruence|].
  cbn [map nodup]. rewrite (A x (or_introl eq_refl)). destruct l as [|y l]; [reflexivity|]. destruct (in_dec Z.eq_dec 0 _) as [_|n].
  - apply IH; [intros z Hz; apply A; now right|discriminate].
  - destruct n. cbn [map]. left. apply A. right. now left.
Qed.
Lemma flat_keys rules : flat rules -> rules <> [] -> table_keys (objects rules) = [0].
Proof.
  intros H N. unfold table_keys. assert (A : forall x, In x (objects rules) -> table (rcore (snd x)) = 0) by (intros x Hx; exact (proj1 (H _ (objects_rule _ _ Hx)))).
  assert (B : objects rules <> []) by (destruct rules; [congruence|discriminate]). revert A B. generalize (objects rules). clear. intros [|x l] A B; [congruence|].
  cbn [fold_left]. rewrite (A x (or_introl eq_refl)). cbn [existsb app]. assert (A' : forall y, In y l -> table (rcore (snd y)) = 0) by (intros; apply A; now right). clear A B.
  induction l as [|y l IH]; [reflexivity|]. cbn [fold_left]. rewrite (A' y (or_introl eq_refl)). cbn [existsb Z.eqb orb]. apply IH. intros; apply A'; now right.
Qed.
Lemma flat_no_edges rules r : flat rules -> rules <> [] -> ind_goto_edges (objects rules) r = (r, Ok []).
Proof.
  intros H N. unfold ind_goto_edges. rewrite (flat_keys rules H N). cbn [sfold]. unfold sbind at 1 2. cbn [recurse_goto]. rewrite (flat_with rules H). cbn [fst snd].
  assert (G : forall (l : list (nat * rule)) (s : list edge * bool) (r : registry), (forall x, In x l -> goto_table (inst (rcore (snd x))) = None) ->
    forall f (E : forall s x, goto_table (inst (rcore (snd x))) = None -> f s x = (sret s : st (list edge * bool))),
    sfold f l s r = (r, Ok s)).
  { clear. induction l as [|x l IH]; intros s r H f E; [reflexivity|]. cbn [sfold]. unfold sbind. rewrite (E s x (H x (or_introl eq_refl))). unfold sret. apply IH; [intros; apply H; now right|exact E]. }
  rewrite G.
  - destruct (objects rules) eqn:Eo; [destruct rules; [congruence|discriminate]|]. reflexivity.
  - intros x Hx. exact (proj2 (H _ (objects_rule _ _ Hx))).
  - intros s x Hx. rewrite Hx. cbn [overlaps_ingress]. destruct s. reflexivity.
Qed.
Lemma indirect_prefix SHIFT one edge_ord rules r : flat rules -> rules <> [] ->
  indirect_deps SHIFT one edge_ord true None rules r = match ind_prefix_table_deps rules with Ok d => (r, Ok (edge_ord (fold_left eadd d []))) | Err x => (r, Err x) end.
Proof.
  intros H N. unfold indirect_deps. unfold sbind at 1, sret at 1. unfold sbind at 1. rewrite (flat_no_edges rules r H N), (flat_keys rules H N). unfold sbind at 1. cbn [sfold]. rewrite (flat_with rules H).
  unfold sbind at 1 2. unfold indirect_build, slift, prefix_deps_all, ind_prefix_table_deps. match goal with |- context [match ?x with Ok _ => _ | Err _ => _ end] => destruct x end; reflexivity.
Qed.
Lemma indirect_prefix_extra SHIFT one edge_ord b rules r r' e : rules <> [] -> indirect_deps SHIFT one edge_ord true (Some b) rules r <> (r', Ok e).
Proof.
  intros N. unfold indirect_deps. unfold sbind at 1. match goal with |- context [match ?c with (_, _) => _ end] => destruct c as [r1 [y0|y0]] end; [|discriminate].
  unfold sbind at 1. destruct (ind_goto_edges (objects rules) r1) as [r2 [y|y]]; [|discriminate]. unfold sbind at 1.
  assert (K : table_keys (objects rules) <> []).
  { intros K. destruct rules as [|R rules]; [congruence|]. assert (X : In (table (rcore R)) (table_keys (objects (R :: rules)))) by (apply table_keys_in; exists (0%nat, R); split; [now left|reflexivity]). rewrite K in X. destruct X. }
  destruct (table_keys (objects rules)) as [|t ts]; [congruence|]. cbn [sfold]. unfold sbind at 1 2. unfold indirect_build, slift. discriminate.
Qed.
Lemma direct_prefix SHIFT one ord u rules r : 0 < SHIFT -> SHIFT mod 2 = 0 -> one <> 0 -> matches_ok r rules -> flat rules -> rules <> [] -> forall r' e,
  direct_deps SHIFT one ord true u rules r = (r', Ok e) ->
  (exists d, build_prefix_table_deps SHIFT one rules = Ok d /\ forall x, In x e <-> In x (map fst d)) \/ (exists d, build_prefix_table_deps_wc rules = Ok d /\ forall x, In x e <-> In x (map fst d)).
Proof.
  intros Hs Hs2 Ho Hm H N r' e E. assert (Hg : forall R, In R rules -> goto_table (inst (rcore R)) = None) by (intros R HR; apply H, HR).
  assert (B : forall r1 r2 e', build_ruleset_deps SHIFT one (fun objs => slift (prefix_deps_bdd SHIFT one objs)) rules r1 = (r2, Ok e') -> exists d, build_prefix_table_deps SHIFT one rules = Ok d /\ forall x, In x e' <-> In x (map fst d)).
  { clear E. intros r1 r2 e' E. apply (hs_same_edges SHIFT one _ rules r1 r2 e' Hg) in E. rewrite (hs_plain _ rules r1 Hg) in E. rewrite (flat_tables rules H N) in E. cbn [sfold] in E. rewrite (flat_with rules H) in E.
    unfold skeys, sbind, slift in E. change (prefix_deps_bdd SHIFT one (objects rules)) with (build_prefix_table_deps SHIFT one rules) in E. destruct (build_prefix_table_deps SHIFT one rules) as [d|x]; [|discriminate E].
    unfold sret in E. injection E as _ <-. exists d. split; [reflexivity|]. intros x. rewrite esets_keys. cbn [map]. rewrite (proj2 (fold_eadd (map fst d) [] (NoDup_nil _))). cbn [In]. tauto. }
  destruct u as [[]|]; cbn [direct_deps] in E; [left; eapply B; exact E| |left; eapply B; exact E]. right.
  rewrite (hs_plain (fun objs => slift (prefix_deps_wc objs)) rules r Hg) in E. rewrite (flat_tables rules H N) in E. cbn [sfold] in E. rewrite (flat_with rules H) in E.
  unfold skeys, sbind, slift in E. change (prefix_deps_wc (objects rules)) with (build_prefix_table_deps_wc rules) in E. destruct (build_prefix_table_deps_wc rules) as [d|x]; [|discriminate E].
  unfold sret in E. injection E as _ <-. exists d. split; [reflexivity|]. intros x. rewrite esets_keys. cbn [map]. rewrite (proj2 (fold_eadd (map fst d) [] (NoDup_nil _))). cbn [In]. tauto.
Qed.
(** *** Their dependencies lead to lower priorities *)
Lemma prefix_forward rules P deps : flat rules -> prefix_table rules P -> (forall i j, In (i, j) deps -> lies_in P i j) -> forward rules deps.
Proof.
  intros H (F & _) Hd a b Hab. destruct (Hd a b Hab) as (n & l & n' & l' & A & B & (L & _)).
  assert (G : forall k q, nth_error P k = Some q -> exists R, nth_error rules k = Some R /\ ipv4_prefix R (fst q) (snd q)).
  { clear - F. induction F as [|R q0 rs P0 H F IH]; intros [|k] q E; try discriminate; cbn [nth_error] in *; [injection E as <-; eauto|apply IH, E]. }
  destruct (G _ _ A) as (R & HR & _ & PR & _). destruct (G _ _ B) as (S0 & HS & _ & PS & _). cbn [fst snd] in *. exists R, S0. split; [exact HR|]. split; [exact HS|].
  right. destruct (H R (nth_error_In _ _ HR)) as [-> _], (H S0 (nth_error_In _ _ HS)) as [-> _]. split; [reflexivity|lia].
Qed.

(** ** Routing tables *)
Definition prefix_of (r : route) : Z * Z := (weigh 256 (ro_octets r), ro_len r).
Lemma netmask_value len : 0 <= len <= 32 -> netmask len = 2 ^ 32 - 2 ^ (32 - len).
Proof.
  intros L. assert (H : forallb (fun k => netmask (Z.of_nat k) =? 2 ^ 32 - 2 ^ (32 - Z.of_nat k)) (seq 0 33) = true) by (vm_compute; reflexivity).
  rewrite forallb_forall in H. specialize (H (Z.to_nat len)). rewrite Z2Nat.id in H by lia. apply Z.eqb_eq, H, in_seq. lia.
Qed.
Lemma masked ip len : 0 <= len <= 32 -> 0 <= ip < 2 ^ 32 -> ip mod 2 ^ (32 - len) = 0 -> Z.land ip (netmask len) = ip.
Proof.
  intros L IP M. assert (NR := netmask_range len). apply Z.bits_inj'. intros j J. rewrite Z.land_spec. destruct (Z_lt_ge_dec j 32) as [J'|J'].
  - rewrite netmask_bits by lia. destruct (Z.leb_spec (32 - len) j) as [A|A]; [apply andb_true_r|]. rewrite andb_false_r. symmetry.
    rewrite <- (Z.mod_pow2_bits_low ip (32 - len) j) by lia. rewrite M. apply Z.bits_0.
  - rewrite (testbit_small ip 32) by lia. reflexivity.
Qed.
Lemma fib_items r ip len : reg_ok r -> 0 <= len <= 32 -> 0 <= ip < 2 ^ 32 -> ip mod 2 ^ (32 - len) = 0 ->
  exists m, s_append match_new "IPV4_DST" ip (Some (netmask len)) r = (r, Ok m) /\ match_ok r m /\
  exists k, items_view (m_items m) = [("IPV4_DST", (ip, k))] /\ ((len = 32 /\ k = None) \/ k = Some (2 ^ 32 - 2 ^ (32 - len))).
Proof.
  intros R L IP M. destruct (fib_match r ip len R L IP) as (m & E & _). destruct (append_runs r match_new "IPV4_DST" ip (Some (netmask len)) R) as (r' & m' & E' & _ & _ & P & _).
  { apply match_new_ok. } rewrite E in E'. injection E' as <- <-. exists m. split; [exact E|]. split; [exact P|].
  destruct dst_slot as [s [S1 [S2 S3]]]. destruct (reg_bits_known r "IPV4_DST" s R S1 S2) as [i D]. rewrite S3 in D.
  unfold s_append, match_append, oxm_name_to_id in E. rewrite D, D in E. assert (NR := netmask_range len). assert (NV := netmask_value len L).
  unfold append_norm in E. cbn [Z.eqb orb] in E. destruct (Z.eqb_spec (netmask len) 0) as [Z0|Z0].
  - injection E as <-. cbn [m_items match_new dict_set items_view map fst snd]. eexists. split; [reflexivity|]. right. now rewrite <- NV.
  - assert (M1 : Z.land (netmask len) (2 ^ 32 - 1) = netmask len) by (change (2 ^ 32 - 1) with (Z.ones 32); rewrite Z.land_ones, Z.mod_small by lia; reflexivity).
    rewrite M1 in E. injection E as <-. cbn [m_items match_new dict_set items_view map fst snd]. rewrite (masked ip len L IP M). eexists. split; [reflexivity|].
    destruct (Z.eqb_spec (netmask len) 4294967295) as [Q|Q]; [left|right; now rewrite <- NV]. split; [|reflexivity].
    assert (X : 2 ^ (32 - len) = 1) by lia. destruct (Z.eq_dec len 32) as [|n]; [assumption|]. exfalso. assert (Y := Z.pow_gt_1 2 (32 - len)). lia.
Qed.
Lemma fib_line_prefix reg s r line s' : reg_ok reg -> route_line r line -> weigh 256 (ro_octets r) mod 2 ^ (32 - ro_len r) = 0 -> fib_line s line reg = (reg, Ok s') ->
  exists c k, fb_rules s' = fb_rules s ++ [c] /\ match_ok reg (rmatch (rcore c)) /\ ipv4_prefix c (weigh 256 (ro_octets r)) (ro_len r) /\ table (rcore c) = 0 /\
    inst (rcore c) = mkInst None al_empty (output_set k) None false None.
Proof.
  intros R H Can. destruct (route_read r line H) as [ws [W [P [LEN [IP [w1 [mk [addr [a [b [c [d [I1 [I2 [I3 [I4 [[ta [tb [tc [td [SP [A [B [C D]]]]]]]] V]]]]]]]]]]]]]]]]].
  unfold fib_line, sbind at 1. rewrite W, I1. cbn [rbind]. rewrite I2. cbn [rbind]. rewrite I3. cbn [rbind]. rewrite I4. cbn [rbind]. rewrite SP.
  unfold item at 1 2 3 4. cbn [nth_error rbind]. rewrite A. cbn [rbind]. rewrite B. cbn [rbind]. rewrite C. cbn [rbind]. rewrite D. cbn [rbind].
  unfold shl. rewrite (proj2 (Z.ltb_ge (32 - ro_len r) 0)) by lia. cbn [rbind slift]. rewrite V. fold (netmask (ro_len r)).
  destruct (fib_items reg (weigh 256 (ro_octets r)) (ro_len r) R LEN IP Can) as [m [E [Mo (mk' & Iv & Km)]]]. unfold sbind at 1. rewrite E.
  unfold sbind at 1. cbn [slift]. rewrite P. destruct (peer_port (fb_map s) (ro_peer r)) as [k|] eqn:K.
  - unfold sbind at 1. cbn [slift]. rewrite K. unfold sbind at 1. cbn [slift]. rewrite output_append. cbn [sret]. intros [= <-].
    eexists. exists k. cbn [fb_rules]. split; [reflexivity|]. split; [exact Mo|]. split; [|split; reflexivity].
    split; [exact LEN|]. split; [reflexivity|]. split; [exact IP|]. split; [exact Can|]. exists mk'. split; [exact Iv|exact Km].
  - unfold sbind at 1. cbn [slift fb_map]. cbn [peer_port]. destruct (text_eqb_spec (ro_peer r) (ro_peer r)) as [_|Q]; [|congruence].
    unfold sbind at 1. cbn [slift]. rewrite output_append. cbn [sret fb_count fb_map fb_rules]. intros [= <-].
    eexists. exists (fb_count s + 1). cbn [fb_rules]. split; [reflexivity|]. split; [exact Mo|]. split; [|split; reflexivity].
    split; [exact LEN|]. split; [reflexivity|]. split; [exact IP|]. split; [exact Can|]. exists mk'. split; [exact Iv|exact Km].
Qed.
Lemma fib_rules_prefix reg rs lines : reg_ok reg -> Forall2 route_line rs lines -> (forall r, In r rs -> weigh 256 (ro_octets r) mod 2 ^ (32 - ro_len r) = 0) ->
  exists rules, ruleset_from_fib lines reg = (reg, Ok rules) /\ Forall2 (fun R q => ipv4_prefix R (fst q) (snd q)) rules (map prefix_of rs) /\
  forall R, In R rules -> match_ok reg (rmatch (rcore R)) /\ table (rcore R) = 0 /\ exists k, inst (rcore R) = mkInst None al_empty (output_set k) None false None.
Proof.
  intros Hr F Can. unfold ruleset_from_fib, sbind.
  assert (G : forall s, exists s' rules, sfold fib_line lines s reg = (reg, Ok s') /\ fb_rules s' = fb_rules s ++ rules /\ Forall2 (fun R q => ipv4_prefix R (fst q) (snd q)) rules (map prefix_of rs) /\
    forall R, In R rules -> match_ok reg (rmatch (rcore R)) /\ table (rcore R) = 0 /\ exists k, inst (rcore R) = mkInst None al_empty (output_set k) None false None).
  { induction F as [|r line rs lines H F IH]; intros s; [exists s, []; split; [reflexivity|]; split; [now rewrite app_nil_r|]; split; [constructor|intros R []]|].
    destruct (fib_line_ok reg s r line Hr H) as (s1 & E & _). destruct (fib_line_prefix reg s r line s1 Hr H (Can r (or_introl eq_refl)) E) as (c & k & E1 & Mo & Pf & Tb & In0).
    destruct (IH (fun r' H' => Can r' (or_intror H')) s1) as (s2 & rules & E2 & E3 & F2 & A). exists s2, (c :: rules). cbn [sfold]. unfold sbind. rewrite E.
    split; [exact E2|]. split; [rewrite E3, E1, <- app_assoc; reflexivity|]. split; [now constructor|]. intros R [<-|HR]; [eauto|auto]. }
  destruct (G (mkFib 0 [] [])) as (s' & rules & E & E1 & F2 & A). rewrite E. exists rules. cbn [fb_rules app] in E1. unfold sret. rewrite E1. auto.
Qed.
