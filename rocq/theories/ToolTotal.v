(** When check_equivalence answers: every step of the command succeeds on rules whose actions can be
    compared with each other. *)
From Coq Require Import Permutation Sorted Lia.
From Verif Require Import Tool SpecTool ToolProofs MatchProofs NormaliseProofs MergeProofs EagerProofs SingleTableProofs PriorityProofs
  ActionSetProofs ActionProofs InstProofs ExecProofs RedundantProofs PerOutputProofs LazyProofs PropNormalise.
Local Open Scope string_scope.
Local Open Scope list_scope.
Local Open Scope Z_scope.

(** ** Reading off the actions of a rule *)
Section Pool.
  Context (P : action -> Prop) (HP : forall a b, P a -> P b -> compat a b)
    (Hout : forall v, P ("OUTPUT", v) -> exists k, v = VInt k) (Hgrp : forall v, ~ P ("GROUP", v)).
  Definition pool_entry (kv : Z * alist) : Prop := exists xs, al_ok (snd kv) xs /\ Forall P xs.
  Lemma pool_append l xs a : al_ok l xs -> Forall P xs -> P a -> exists l', al_append l a = Ok l' /\ al_ok l' (xs ++ [a]) /\ Forall P (xs ++ [a]).
  Proof using HP.
    intros H F Sa. destruct (al_append_total l xs a H) as (l' & E).
    { eapply Forall_impl; [|exact F]. intros b Hb. now apply HP. }
    exists l'. split; [auto|]. split; [eapply al_append_ok; eauto|]. apply Forall_app. auto.
  Qed.
  Lemma po_list_pool b : Forall P b -> forall h cur res, al_ok cur h -> Forall P h -> Forall pool_entry res ->
    exists d cur' h', po_list b res cur = Ok (d, cur') /\ Forall pool_entry d /\ al_ok cur' h' /\ Forall P h'.
  Proof using HP Hout Hgrp.
    induction 1 as [|[n v] b Ha Hb IH]; intros h cur res Hc Hh Hr; cbn [po_list]; [exists res, cur, h; auto|].
    destruct (pool_append cur h (n, v) Hc Hh Ha) as (out & Eo & Ho & Fo). cbn [fst snd]. destruct (String.eqb_spec n "OUTPUT") as [->|N].
    - destruct (Hout v Ha) as (k & ->). rewrite Eo. cbn [rbind]. apply (IH h); auto. apply po_set_forall; [exact Hr|]. exists (h ++ [("OUTPUT", VInt k)]). auto.
    - destruct (String.eqb_spec n "GROUP") as [->|N']; [destruct (Hgrp v Ha)|]. rewrite Eo. cbn [rbind]. apply (IH (h ++ [(n, v)])); auto.
  Qed.
  Lemma redundant_pool l xs : al_ok l xs -> Forall P xs -> exists l', remove_redundant l = Ok l'.
  Proof using HP.
    intros H F. assert (Q : Forall P (al_iter l)) by (eapply Permutation_Forall; [apply al_ok_perm, H|exact F]).
    unfold remove_redundant. destruct (remove_redundant_total (al_iter l)) as (ys & E); [apply (pool_known P HP), Q|].
    rewrite E. cbn [rbind]. apply al_of_total. assert (S := remove_redundant_sub _ _ E). rewrite Forall_forall in Q.
    intros a b Ha Hb. apply HP; apply Q; eapply sublist_in; eauto.
  Qed.
  Lemma per_output_pool l xs : al_ok l xs -> Forall P xs -> exists d, per_output_actions l = Ok d.
  Proof using HP Hout Hgrp.
    intros H F. assert (Q : Forall P (al_iter l)) by (eapply Permutation_Forall; [apply al_ok_perm, H|exact F]).
    unfold per_output_actions, per_output_actions_pt.
    destruct (po_list_pool (al_iter l) Q [] al_empty [] al_empty_ok (Forall_nil _) (Forall_nil _)) as (d & cur & h & E & Fd & Hc & Hh).
    rewrite E. cbn [rbind]. clear E.
    assert (X : exists d', po_clean d = Ok d').
    { clear - HP Fd. induction Fd as [|[k v] d (xs & Hv & Hx) Fd (d' & IH)]; cbn [po_clean]; [eauto|]. cbn [snd] in Hv.
      destruct (redundant_pool v xs Hv Hx) as (v' & ->). cbn [rbind]. rewrite IH. cbn [rbind]. eauto. }
    destruct X as (d' & ->). cbn [rbind]. destruct (redundant_pool cur h Hc Hh) as (c' & ->). cbn [rbind fst]. eauto.
  Qed.
  Lemma actions_pool c : inst_wf (inst (rcore c)) -> pooled P (inst (rcore c)) -> is_ok (rule_actions c) = true.
  Proof using HP Hout Hgrp.
    intros [Ia Iw] [P1 P2]. assert (Iw' : al_ok (write_actions (inst (rcore c))) (orig_order (write_actions (inst (rcore c))))) by apply Iw.
    destruct (al_add_total P HP _ _ Ia Iw' P1 P2) as (l & E). unfold rule_actions, full_actions. rewrite E. cbn [rbind].
    destruct (al_add_ok _ _ _ _ _ Ia Iw' E) as [Hl _].
    destruct (per_output_pool l _ Hl) as (d & ->); [|reflexivity]. apply Forall_app. split; [exact P1|]. exact (pool_iter P _ Iw' P2).
  Qed.

  (** ** The loop of the command *)
  Context (SHIFT : Z) (shift_pos : 0 < SHIFT) (shift_even : SHIFT mod 2 = 0).
  Record answerable (reg : registry) (A : list rule) : Prop := mkAnswerable {
    an_good : Forall (good_rule reg true) A;
    an_pool : Forall (fun r => pooled P (inst (rcore r))) A;
    an_start : exists r, In r A /\ table (rcore r) = 0;
    an_prio : forall r, In r A -> priority (rcore r) < 2 ^ 16 }.
  Lemma process_total dc reg w n A : reg_ok reg -> answerable reg A -> (dc = true -> total_tables A) -> NoDup (w_acts w) ->
    exists r' w', process SHIFT dc w (n, A) reg = (r', Ok w') /\ reg_ok r' /\ rle reg r' /\ NoDup (w_acts w').
  Proof using HP Hout Hgrp shift_pos shift_even.
    intros HR [G PL (r0 & I0 & T0) HM] HT ND. assert (G' := sort_good _ _ _ G).
    assert (PL' : Forall (pool_rule P) (sort_ruleset A)) by (rewrite Forall_forall in *; intros x Hx; apply PL; now apply in_sort).
    destruct (single_total P HP (sort_ruleset A) true reg HR G' PL') as (r1 & S & E & Ps).
    { apply tables_of_in. exists r0. split; [now apply in_sort|exact T0]. }
    { intros r Hr. apply HM. now apply in_sort. }
    destruct (single_tables _ _ _ _ _ HR G' E) as (R1 & Gs & Ts). assert (L1 := single_rle _ _ _ _ _ HR G' E).
    assert (OK : rules_ok r1 S) by (intros c Hc; unfold goods in Gs; rewrite Forall_forall in Gs; apply (Gs c Hc)).
    assert (AO : forall c, In c S -> is_ok (rule_actions c) = true).
    { intros c Hc. unfold goods in Gs. rewrite Forall_forall in Gs, Ps. apply actions_pool; [apply (Gs c Hc)|apply (Ps c Hc)]. }
    assert (OT : one_table S = true).
    { destruct S as [|c S]; [reflexivity|]. cbn [one_table]. apply forallb_forall. rewrite Forall_forall in Ts. intros x Hx.
      rewrite (Ts x), (Ts c) by (cbn; auto). reflexivity. }
    destruct (norm_total SHIFT r1 (w_acts w) S OK AO OT) as (a & b & EN).
    assert (ED : (if dc then normalise_dc SHIFT None (w_acts w) S else normalise_naive SHIFT None (w_acts w) S) = Ok (a, b)).
    { destruct dc; [|exact EN]. rewrite (dc_agrees SHIFT shift_pos shift_even r1 S (w_acts w) OK AO); [exact EN| |exact ND].
      destruct (single_table_ok _ _ _ _ _ HR G' (sort_total _ (HT eq_refl)) E (fun _ => false)) as (c & Fc & _). intros ->. inversion Fc. }
    destruct (norm_sem SHIFT shift_pos shift_even dc r1 _ _ _ _ OK ND ED) as (_ & N1 & _).
    exists r1. eexists. unfold process. cbn [fst snd]. unfold sbind at 1. rewrite E. unfold sbind, slift, sret. rewrite ED. cbn [fst snd].
    split; [reflexivity|]. auto.
  Qed.
  Lemma answerable_mono r r' A : rle r r' -> answerable r A -> answerable r' A.
  Proof using. intros L [G PL S M]. split; auto. now apply (good_rules_mono r). Qed.
  Lemma loop_total dc rulesets : forall reg w, reg_ok reg -> (forall n A, In (n, A) rulesets -> answerable reg A /\ (dc = true -> total_tables A)) -> NoDup (w_acts w) ->
    exists r' w', sfold (process SHIFT dc) rulesets w reg = (r', Ok w') /\ reg_ok r' /\ rle reg r'.
  Proof using HP Hout Hgrp shift_pos shift_even.
    induction rulesets as [|[n A] rest IH]; intros reg w HR H ND; cbn [sfold].
    - exists reg, w. split; [reflexivity|]. split; [auto|apply rle_refl].
    - destruct (H n A (or_introl eq_refl)) as [HA HT]. destruct (process_total dc reg w n A HR HA HT ND) as (r1 & w1 & E1 & R1 & L1 & N1).
      destruct (IH r1 w1 R1) as (r' & w' & E & R & L); [|exact N1|].
      { intros m B HB. destruct (H m B (or_intror HB)) as [X Y]. split; [now apply (answerable_mono reg)|auto]. }
      exists r', w'. split; [|split; [auto|eapply rle_trans; eauto]]. unfold sbind. now rewrite E1.
  Qed.
End Pool.
