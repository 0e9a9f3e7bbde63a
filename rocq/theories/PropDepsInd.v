(** Theorems for C68: indirect dependencies across tables. *)
From Coq Require Import Lia Permutation Sorted.
From Coq Require Import ZifyBool ZifyNat ZifyN.
From Verif Require Import SpecBdd WildcardProofs MatchProofs BddProofs CuddProofs BddApi SpecPipeline MergeProofs Deps DepsInd SpecDeps DepsProofs DepsTable DepsMultiProofs DepsIndProofs ActionProofs MatchWcProofs NormaliseProofs PropNormalise PropMerge PropDeps PropDepsInc PropDepsMulti.
Local Open Scope string_scope.
Local Open Scope list_scope.
Local Open Scope Z_scope.
Local Opaque NB WC_FULLWC layout oxm_fields registry_init.

(** ** C68 *)
(** Every goto leads to a table that has rules. *)
Definition no_missing_table (rules : list rule) : Prop :=
  forall R t, In R rules -> goto_table (inst (rcore R)) = Some t -> exists S, In S rules /\ table (rcore S) = t.

Theorem C68_indirect_ruleset : forall SHIFT one use_bdd r rules, 0 < SHIFT -> SHIFT mod 2 = 0 -> one <> 0 -> reg_ok r -> ruleset_ok r rules ->
  (forall R, In R rules -> 0 <= table (rcore R)) -> no_missing_table rules ->
  (forall R, In R rules -> (forall S, In S rules -> table (rcore S) = table (rcore R) -> priority (rcore R) <= priority (rcore S)) ->
     inst_ok (inst (rcore R)) /\ plain_acts (orig_order (apply_actions (inst (rcore R))))) ->
  exists r' e, ind_ruleset_deps SHIFT one use_bdd rules r = (r', Ok e) /\ NoDup e /\
    forall i j, In (i, j) e <-> (exists p, covers rules i j p) \/ (exists p, goto_chain rules i j p).
Proof.
  intros SHIFT one use_bdd r rules Hs Hs2 Ho Hr (Hne & Hm & Hg) H0 Hmiss Hlow.
  destruct (ind_ruleset_runs SHIFT one Hs Hs2 Ho use_bdd r rules Hr Hne Hm H0) as (r' & e & E & _ & _ & P); [| |eauto].
  - intros R t HR Et. destruct (Hg R t HR Et) as (A & B). split; [exact A|]. split; [exact B|]. eauto.
  - exact Hlow.
Qed.
(** Every direct edge (C67) is an indirect one. *)
Theorem C68_direct_included : forall rules i j,
  (exists p, falls rules i j p) \/ (exists p, enters rules i j p) -> (exists p, covers rules i j p) \/ (exists p, goto_chain rules i j p).
Proof.
  intros rules i j [(p & R & S0 & H1 & H2 & H3 & H4 & H5 & H6 & _)|(p & R & S0 & t & q & H1 & H2 & H3 & H4 & H5 & H6 & H7 & _)].
  - left. exists p, R, S0. do 5 (split; [assumption|]). assumption.
  - right. exists q. assert (A : arrives rules t p j p) by (eapply arr_here; eauto). destruct (arrives_ext _ _ _ _ _ A _ H6) as (q' & B & _).
    exists R, t, q'. auto.
Qed.
(** With a goto to a table without rules the builder raises a RuntimeError: the table is added to
    the dict that is being iterated. *)
Definition ex68_missing : list rule := [mk_g 5 0 [] (mk_full [OUTPUT 1] [] (Some 7) false None)].
Theorem C68_missing_table_refuted : ~ (forall SHIFT one use_bdd r rules, 0 < SHIFT -> SHIFT mod 2 = 0 -> one <> 0 -> reg_ok r -> ruleset_ok r rules ->
  (forall R, In R rules -> 0 <= table (rcore R)) ->
  (forall R, In R rules -> inst_ok (inst (rcore R)) /\ plain_acts (orig_order (apply_actions (inst (rcore R))))) ->
  exists r' e, ind_ruleset_deps SHIFT one use_bdd rules r = (r', Ok e)).
Proof.
  intros H.
  assert (P : proper registry_init true (mk_core2 5 0 [] (mk_full [OUTPUT 1] [] (Some 7) false None))) by (apply mk_proper; vm_compute; reflexivity).
  destruct P as (A & B & C & _). assert (Q : inst_ok (mk_full [OUTPUT 1] [] (Some 7) false None) /\ plain_acts (orig_order (apply_actions (mk_full [OUTPUT 1] [] (Some 7) false None)))) by exact (conj (proj1 B) C).
  destruct (H 30 1 false registry_init ex68_missing) as (r' & e & E).
  - lia. - reflexivity. - lia. - exact reg_init_ok.
  - split; [discriminate|]. split.
    + intros R [<-|[]]. exact A.
    + intros R t [<-|[]] Et. injection Et as <-. split; [reflexivity|exact Q].
  - intros R [<-|[]]. vm_compute. discriminate.
  - intros R [<-|[]]. exact Q.
  - assert (X : snd (ind_ruleset_deps 30 1 false ex68_missing registry_init) = Err RuntimeError) by (vm_compute; reflexivity). rewrite E in X. discriminate X.
Qed.

(** Example: the rules of C67_ex. The rule at 0 has no direct edge to the rule at 4, but an indirect one. *)
Lemma ex67_tables : no_missing_table ex67.
Proof.
  intros R t H E. exists (nth 4 ex67 push_rule). destruct H as [<-|[<-|[<-|[<-|[<-|[]]]]]]; try discriminate E. injection E as <-. split; [|reflexivity].
  right. right. right. right. now left.
Qed.
Example C68_ex : exists r' e, ind_ruleset_deps 30 1 true ex67 registry_init = (r', Ok e) /\
  In (0, 1)%nat e /\ In (0, 3)%nat e /\ In (0, 4)%nat e /\ ~ In (0, 2)%nat e.
Proof.
  destruct (C68_indirect_ruleset 30 1 true registry_init ex67 ltac:(lia) eq_refl ltac:(lia) reg_init_ok ex67_ok) as (r' & e & E & _ & K).
  { intros R H. destruct H as [<-|[<-|[<-|[<-|[<-|[]]]]]]; vm_compute; discriminate. }
  { exact ex67_tables. } { intros R H _. now apply ex67_plain. }
  exists r', e. split; [exact E|]. split; [|split; [|split]].
  - apply K. left. exists (bit420 false). eexists _, _. split; [reflexivity|]. split; [reflexivity|]. split; [reflexivity|]. split; [vm_compute; reflexivity|].
    split; [now apply bos0_accepts|now apply def_accepts].
  - apply K. right. exists (bit420 false). eexists _, 1, _. split; [reflexivity|]. split; [now apply bos0_accepts|]. split; [reflexivity|].
    eapply arr_here; [reflexivity|reflexivity|]. apply bos_accepts; [reflexivity|]. apply ex67_rewrite.
  - apply K. right. exists (bit420 false). eexists _, 1, _. split; [reflexivity|]. split; [now apply bos0_accepts|]. split; [reflexivity|].
    eapply arr_here; [reflexivity|reflexivity|]. now apply def_accepts.
  - intros X. apply K in X as [(p & X)|(p & X)].
    + destruct X as (R & S0 & HR & HS & T & _). injection HR as <-. injection HS as <-. vm_compute in T. discriminate T.
    + destruct X as (R & t & q & HR & _ & Hg & A). injection HR as <-. injection Hg as <-.
      inversion A as [t0 p0 j S0 H1 H2 H3|t0 p0 k S0 t1 j q0 H1 H2 H3 H4 H5]; clear A; subst.
      * injection H1 as <-. apply bos0_accepts in H3; [|reflexivity]. rewrite ex67_rewrite in H3. discriminate H3.
      * destruct k as [|[|[|[|[|k]]]]]; [| | | | |destruct k; discriminate H1]; injection H1 as <-; try discriminate H4. vm_compute in H2. discriminate H2.
Qed.

Print Assumptions C68_indirect_ruleset.
Print Assumptions C68_direct_included.
Print Assumptions C68_missing_table_refuted.
