(** Theorems for C53 (memory limit), C56 (routing tables), C57 (UniqueRules) and C60 (bit
    reversal). *)
From Verif Require Import Limits Fib Unique Reverse SpecMisc SpecExec MiscProofs ReverseProofs MatchProofs MatchWcProofs ActionProofs Normalise NormaliseProofs PropNormalise FormatProofs.
From Coq Require Import ZifyBool ZifyNat ZifyN.
Local Open Scope string_scope.
Local Open Scope list_scope.
Local Open Scope Z_scope.
Local Opaque NB WC_FULLWC layout oxm_fields registry_init.

(** for the examples: blanks and other characters *)
Definition blankb (c : ascii) : bool := existsb (Nat.eqb (nat_of_ascii c)) [9; 10; 11; 12; 13; 32]%nat.
Lemma blankb_spec c : blankb c = true <-> blank c.
Proof.
  unfold blankb, blank. rewrite existsb_exists. split; [intros [x [H E]]; apply Nat.eqb_eq in E; now subst|]. intros H. eexists. split; [exact H|apply Nat.eqb_refl].
Qed.
Lemma all_blank s : forallb blankb s = true -> Forall blank s.
Proof. rewrite forallb_forall, Forall_forall. intros H c C. apply blankb_spec. auto. Qed.
Lemma none_blank s : forallb (fun c => negb (blankb c)) s = true -> Forall (fun c => ~ blank c) s.
Proof. rewrite forallb_forall, Forall_forall. intros H c C B. apply blankb_spec in B. specialize (H c C). rewrite B in H. discriminate. Qed.
Ltac blanks := first [apply blankb_spec; reflexivity|apply all_blank; reflexivity|apply none_blank; reflexivity].

(** ** C53. When it acts, the limit is the least one that respects the minimum and both bounds on
    the memory kept for others. *)
Theorem C53_limit : forall m_min perc res pre line post kb, 0 <= perc <= 100 ->
  Forall (fun l => ~ mentions (T "MemFree") l) pre -> mem_free_line line kb ->
  exists limit, automatically_limit_memory m_min perc (Some res) (RLIM_INFINITY, RLIM_INFINITY) (Some (pre ++ line :: post)) = Ok (Some (limit, RLIM_INFINITY), true) /\
  respects m_min perc res (kb * 1024) limit /\ (forall l', respects m_min perc res (kb * 1024) l' -> limit <= l') /\
  (0 <= res -> limit <= Z.max (kb * 1024) m_min).
Proof.
  intros m_min perc res pre line post kb P F L. unfold automatically_limit_memory. rewrite (mem_free_found pre line post kb F L).
  assert (E : (0 <=? perc) && (perc <=? 100) = true) by lia. rewrite E. cbn [negb fst snd rbind Z.eqb andb RLIM_INFINITY Pos.eqb].
  eexists. split; [reflexivity|]. pose proof (limit_respects m_min perc res (kb * 1024)) as [A B]. split; [exact A|]. split; [exact B|].
  intros R. assert (0 <= kb) by (destruct L as [_ [w0 [w [rest [_ N]]]]]; pose proof (numeral_nonneg 10 _ _ ltac:(lia) N); lia).
  assert (0 <= perc * (kb * 1024) / 100) by (apply Z.div_pos; lia). lia.
Qed.
(** It leaves everything alone when a limit exists or nothing is known about the memory. *)
Theorem C53_untouched : forall m_min perc res orig meminfo, 0 <= perc <= 100 ->
  (orig <> (RLIM_INFINITY, RLIM_INFINITY) \/ match meminfo with None => True | Some lines => Forall (fun l => ~ mentions (T "MemFree") l) lines end) ->
  automatically_limit_memory m_min perc res orig meminfo = Ok (None, false).
Proof.
  intros m_min perc res orig meminfo P H. unfold automatically_limit_memory. assert (E : (0 <=? perc) && (perc <=? 100) = true) by lia. rewrite E. cbn [negb].
  destruct orig as [a b]. cbn [fst snd]. destruct ((a =? RLIM_INFINITY) && (b =? RLIM_INFINITY)) eqn:Q; [|reflexivity]. cbn [negb].
  destruct H as [H|H]; [exfalso; apply H; unfold RLIM_INFINITY in *; f_equal; lia|]. destruct meminfo as [lines|]; [|reflexivity].
  rewrite (mem_free_none lines H). reflexivity.
Qed.
Theorem C53_percentage : forall m_min perc res orig meminfo, ~ 0 <= perc <= 100 ->
  automatically_limit_memory m_min perc res orig meminfo = Err AssertionError.
Proof. intros m_min perc res orig meminfo P. unfold automatically_limit_memory. assert (E : (0 <=? perc) && (perc <=? 100) = false) by lia. now rewrite E. Qed.
(** max_res=None, documented as "always use res_perc", fails when a limit would be set. *)
Theorem C53_no_maximum_refuted : exists m_min perc pre line kb, 0 <= perc <= 100 /\ mem_free_line line kb /\
  automatically_limit_memory m_min perc None (RLIM_INFINITY, RLIM_INFINITY) (Some (pre ++ [line])) = Err TypeError.
Proof.
  exists 0, 10, [], (T "MemFree: 8 kB"), 8. split; [lia|]. split; [|vm_compute; reflexivity]. split; [exists [], (T ": 8 kB"); reflexivity|].
  exists (T "MemFree:"), (T "8"), [T "kB"]. split; [|constructor; [cbn; tauto|lia]].
  apply (sp_word [] (T "MemFree:") " "%char [T "8"; T "kB"] (T "8 kB")); [blanks|discriminate|blanks|blanks|].
  apply (sp_word [] (T "8") " "%char [T "kB"] (T "kB")); [blanks|discriminate|blanks|blanks|].
  apply (sp_last [] (T "kB") []); [blanks|discriminate|blanks|blanks].
Qed.
Definition meminfo_line := T "MemFree:        8167848 kB".
Lemma meminfo_line_ok : mem_free_line meminfo_line 8167848.
Proof.
  split; [exists [], (T ":        8167848 kB"); reflexivity|]. exists (T "MemFree:"), (T "8167848"), [T "kB"]. split.
  - apply (sp_word [] (T "MemFree:") " "%char [T "8167848"; T "kB"] (T "       8167848 kB")); [blanks|discriminate|blanks|blanks|].
    apply (sp_word (T "       ") (T "8167848") " "%char [T "kB"] (T "kB")); [blanks|discriminate|blanks|blanks|].
    apply (sp_last [] (T "kB") []); [blanks|discriminate|blanks|blanks].
  - change (T "8167848") with ((((((["8"%char] ++ ["1"%char]) ++ ["6"%char]) ++ ["7"%char]) ++ ["8"%char]) ++ ["4"%char]) ++ ["8"%char]).
    change 8167848 with ((((((8 * 10 + 1) * 10 + 6) * 10 + 7) * 10 + 8) * 10 + 4) * 10 + 8).
    do 6 (apply num_more; [|cbn; tauto|lia]). apply num_one; [cbn; tauto|lia].
Qed.
Example C53_ex : mem_free_line meminfo_line 8167848 /\ ~ mentions (T "MemFree") (T "MemTotal: 1 kB") /\
  automatically_limit_memory (2 ^ 30) 10 (Some (2 ^ 30)) (-1, -1) (Some [T "MemTotal: 1 kB"; meminfo_line]) = Ok (Some (7527488717, -1), true) /\
  respects (2 ^ 30) 10 (2 ^ 30) (8167848 * 1024) 7527488717.
Proof.
  split; [exact meminfo_line_ok|]. split; [|split; [vm_compute; reflexivity|unfold respects; lia]].
  intros M. apply contains_spec in M. vm_compute in M. discriminate.
Qed.
Print Assumptions C53_limit.
Print Assumptions C53_untouched.
Print Assumptions C53_percentage.
Print Assumptions C53_no_maximum_refuted.

(** ** C56. Every well-formed table converts; the sorted rules do longest-prefix matching. *)
Lemma accepts_total rules p : (forall c, In c rules -> rule_accepts c p \/ ~ rule_accepts c p) -> exists o, first_match rules p o.
Proof.
  induction rules as [|c rules IH]; intros H; [exists None; constructor|]. destruct (H c (or_introl eq_refl)) as [A|A]; [exists (Some c); now constructor|].
  destruct IH as [o O]; [intros; apply H; now right|]. exists o. now apply fm_miss.
Qed.
Theorem C56_longest_prefix : forall reg rs lines, reg_ok reg -> Forall2 route_line rs lines ->
  exists rules ports, ruleset_from_fib lines reg = (reg, Ok rules) /\ List.length rules = List.length rs /\
  first_seen (map ro_peer rs) ports /\
  (forall i j w w' k k', nth_error (map ro_peer rs) i = Some w -> nth_error (map ro_peer rs) j = Some w' ->
     nth_error ports i = Some k -> nth_error ports j = Some k' -> (w = w' <-> k = k')) /\
  (forall i r c, nth_error rs i = Some r -> nth_error rules i = Some c -> exists k, nth_error ports i = Some k /\ fib_rule r k c) /\
  forall p n, destination p n ->
    exists o, first_match (sort_ruleset rules) p o /\
    match o with
    | Some c => exists i r k, nth_error rs i = Some r /\ nth_error ports i = Some k /\ nth_error rules i = Some c /\
                  rule_actions c = Ok [(k, [("OUTPUT", VInt k)])] /\ covers r n /\ forall r', In r' rs -> covers r' n -> ro_len r' <= ro_len r
    | None => forall r, In r rs -> ~ covers r n
    end.
Proof.
  intros reg rs lines R F. destruct (fib_ok reg rs lines R F) as [rules [ports [E [FS [L [INJ FR]]]]]]. exists rules, ports.
  split; [auto|]. split; [auto|]. split; [auto|]. split; [exact INJ|]. split; [exact FR|]. intros p n D.
  destruct (fib_lpm rs ports rules L FR p n D) as [H1 H2]. destruct (accepts_total (sort_ruleset rules) p) as [o O].
  - intros c J. assert (J' : In c rules) by (eapply Permutation.Permutation_in; [apply sort_perm|exact J]).
    apply In_nth_error in J' as [i I0]. destruct (nth_error rs i) as [r|] eqn:Q.
    + destruct (FR _ _ _ Q I0) as [k [_ [_ [_ [_ [_ [_ A]]]]]]]. rewrite (A p n D). unfold covers. lia.
    + apply nth_error_None in Q. assert (i < List.length rules)%nat by (apply nth_error_Some; congruence). lia.
  - exists o. split; [auto|]. destruct o as [c|]; [|auto]. destruct (H1 c O) as [i [r [k [A1 [A2 [A3 [A4 [A5 A6]]]]]]]]. exists i, r, k.
    split; [auto|]. split; [auto|]. split; [auto|]. split; [|auto]. destruct A4 as [_ [_ [_ [_ [I0 _]]]]]. unfold rule_actions. rewrite I0. vm_compute. reflexivity.
Qed.

(** three routes, two peers; the lines as show-ip-bgp prints them *)
Definition fib_lines := map T ["* 0.0.0.0/0 10.9.9.1 0 7 i"; "* 10.0.0.0/8 10.9.9.2 0"; "*> 10.1.0.0/16   10.9.9.1 0"].
Definition fib_routes := [Route [0; 0; 0; 0] 0 (T "10.9.9.1"); Route [10; 0; 0; 0] 8 (T "10.9.9.2"); Route [10; 1; 0; 0] 16 (T "10.9.9.1")].
Ltac digit := apply num_one; [cbn; tauto|lia].
Lemma num_0 : numeral 10 (T "0") 0. Proof. digit. Qed.
Lemma num_1 : numeral 10 (T "1") 1. Proof. digit. Qed.
Lemma num_8 : numeral 10 (T "8") 8. Proof. digit. Qed.
Lemma num_10 : numeral 10 (T "10") 10.
Proof. change (T "10") with (T "1" ++ ["0"%char]). change 10 with (1 * 10 + 0) at 2. apply num_more; [apply num_1|cbn; tauto|lia]. Qed.
Lemma num_16 : numeral 10 (T "16") 16.
Proof. change (T "16") with (T "1" ++ ["6"%char]). change 16 with (1 * 10 + 6). apply num_more; [apply num_1|cbn; tauto|lia]. Qed.
Lemma fib_lines_ok : Forall2 route_line fib_routes fib_lines.
Proof.
  constructor; [|constructor; [|constructor; [|constructor]]].
  - exists (T "*"), [T "0"; T "0"; T "0"; T "0"], (T "0"), [T "0"; T "7"; T "i"]. split; [|split; [repeat (constructor; [apply num_0|]); constructor|split; [reflexivity|split; [repeat constructor; cbn; lia|split; [apply num_0|cbn; lia]]]]].
    apply (sp_word [] (T "*") " "%char _ (T "0.0.0.0/0 10.9.9.1 0 7 i")); [blanks|discriminate|blanks|blanks|].
    apply (sp_word [] (T "0.0.0.0/0") " "%char _ (T "10.9.9.1 0 7 i")); [blanks|discriminate|blanks|blanks|].
    apply (sp_word [] (T "10.9.9.1") " "%char _ (T "0 7 i")); [blanks|discriminate|blanks|blanks|].
    apply (sp_word [] (T "0") " "%char _ (T "7 i")); [blanks|discriminate|blanks|blanks|].
    apply (sp_word [] (T "7") " "%char _ (T "i")); [blanks|discriminate|blanks|blanks|].
    apply (sp_last [] (T "i") []); [blanks|discriminate|blanks|blanks].
  - exists (T "*"), [T "10"; T "0"; T "0"; T "0"], (T "8"), [T "0"]. split; [|split; [constructor; [apply num_10|repeat (constructor; [apply num_0|]); constructor]|split; [reflexivity|split; [repeat constructor; cbn; lia|split; [apply num_8|cbn; lia]]]]].
    apply (sp_word [] (T "*") " "%char _ (T "10.0.0.0/8 10.9.9.2 0")); [blanks|discriminate|blanks|blanks|].
    apply (sp_word [] (T "10.0.0.0/8") " "%char _ (T "10.9.9.2 0")); [blanks|discriminate|blanks|blanks|].
    apply (sp_word [] (T "10.9.9.2") " "%char _ (T "0")); [blanks|discriminate|blanks|blanks|].
    apply (sp_last [] (T "0") []); [blanks|discriminate|blanks|blanks].
  - exists (T "*>"), [T "10"; T "1"; T "0"; T "0"], (T "16"), [T "0"]. split; [|split; [constructor; [apply num_10|constructor; [apply num_1|repeat (constructor; [apply num_0|]); constructor]]|split; [reflexivity|split; [repeat constructor; cbn; lia|split; [apply num_16|cbn; lia]]]]].
    apply (sp_word [] (T "*>") " "%char _ (T "10.1.0.0/16   10.9.9.1 0")); [blanks|discriminate|blanks|blanks|].
    apply (sp_word [] (T "10.1.0.0/16") " "%char _ (T "  10.9.9.1 0")); [blanks|discriminate|blanks|blanks|].
    apply (sp_word (T "  ") (T "10.9.9.1") " "%char _ (T "0")); [blanks|discriminate|blanks|blanks|].
    apply (sp_last [] (T "0") []); [blanks|discriminate|blanks|blanks].
Qed.
Example C56_ex : Forall2 route_line fib_routes fib_lines /\
  (match ruleset_from_fib fib_lines registry_init with
   | (_, Ok rules) => map (fun c => (priority (rcore c), items_view (m_items (rmatch (rcore c))), rule_actions c)) (sort_ruleset rules)
   | _ => [] end =
   [(16, [("IPV4_DST", (0x0a010000, Some 0xffff0000))], Ok [(1, [OUTPUT 1])]); (8, [("IPV4_DST", (0x0a000000, Some 0xff000000))], Ok [(2, [OUTPUT 2])]); (0, [("IPV4_DST", (0, Some 0))], Ok [(1, [OUTPUT 1])])]) /\
  covers (Route [10; 1; 0; 0] 16 (T "10.9.9.1")) 0x0a01ffff /\ ~ covers (Route [10; 1; 0; 0] 16 (T "10.9.9.1")) 0x0a02ffff.
Proof. split; [exact fib_lines_ok|]. split; [vm_compute; reflexivity|]. split; [reflexivity|vm_compute; discriminate]. Qed.
Print Assumptions C56_longest_prefix.

(** ** C57. With a new object for every with statement (as all callers write it), any program sees
    identity comparison inside the blocks and the original methods outside, exceptions included,
    and ends with the original methods. Missing for the full claim: objects used again. *)
Theorem C57_unique_partial : forall (M : Type) (m : M) prog saved, 
  (forall o x, In (o, x) saved -> ~ In o (flat_map objects prog)) -> NoDup (flat_map objects prog) ->
  exists s', run_list prog (mkCls (Some m) saved) = (s', fst (expect_list m false prog), snd (expect_list m false prog)) /\ own s' = Some m.
Proof.
  intros M m prog saved F N. apply outside_list; [reflexivity| |exact N]. intros o J U. unfold used in U. cbn [Unique.saved] in U.
  induction saved as [|[k x] saved IH]; cbn [old map fst In] in *; [tauto|]. destruct U as [U|U]; [subst k; apply (F o x); auto|]. apply IH; auto. intros o' x' H. apply (F o' x'). auto.
Qed.
Example C57_ex : run_list [Look; With 0 [Look; With 1 [Look; With 2 [Raise; Look]]; Look]; Look] (mkCls (Some tt) []) =
  (mkCls (Some tt) [(0%nat, tt)], [Some tt; None; None], true) /\ NoDup (flat_map (@objects) [Look; With 0 [Look; With 1 [Look; With 2 [Raise; Look]]; Look]; Look]).
Proof. split; [reflexivity|]. cbn. repeat constructor; cbn; lia. Qed.
(** One object in two nested with statements: the inner exit restores the methods, and the rest of
    the outer block compares by value. *)
Theorem C57_reuse_refuted : exists prog, run_list prog (mkCls (Some tt) []) <> 
    (fst (fst (run_list prog (mkCls (Some tt) []))), fst (expect_list tt false prog), snd (expect_list tt false prog)).
Proof. exists [With 0 [With 0 []; Look]]. vm_compute. discriminate. Qed.
Print Assumptions C57_unique_partial.
Print Assumptions C57_reuse_refuted.

(** ** C60. Python 2, exact matches (or masks of 0) and in-range values: the reversed ruleset
    treats every packet as the original treats its mirror image, so equal rulesets stay equal and
    different ones different; reversing twice changes nothing.
    Missing: real masks, write_actions, ethertypes of pushes, groups (see below). *)
Theorem C60_reverse_partial : forall reg rules, reg_ok reg -> Forall (plain_rule reg) rules ->
  exists rules' rules'', reverse_fields false rules reg = (reg, Ok rules') /\ Forall2 mirrored rules rules' /\
  (forall p o, first_match rules (mirror_packet p) o ->
     match o with None => first_match rules' p None | Some c => exists c', first_match rules' p (Some c') /\ mirrored c c' end) /\
  reverse_fields false rules' reg = (reg, Ok rules'') /\ Forall2 same_rule rules rules''.
Proof.
  intros reg rules R F. destruct (reverse_fields_ok reg rules R F) as [l' [l'' [E [M [E' S]]]]]. exists l', l''.
  split; [auto|]. split; [auto|]. split; [|auto]. now apply mirrored_hits.
Qed.
Theorem C60_value : forall b v, 0 < b -> 0 <= v < 2 ^ b -> exists w, reverse_value b v = Ok w /\ 0 <= w < 2 ^ b /\
  (forall j, 0 <= j < b -> Z.testbit w j = Z.testbit v (b - 1 - j)) /\ reverse_value b w = Ok v.
Proof.
  intros b v B V. exists (mirror (Z.to_nat b) v). split; [now apply reverse_value_ok|]. pose proof (mirror_range (Z.to_nat b) v) as R. rewrite Z2Nat.id in R by lia.
  split; [exact R|]. split; [intros j J; rewrite mirror_bit by lia; f_equal; lia|]. rewrite reverse_value_ok, mirror_mirror; auto. rewrite Z2Nat.id by lia. auto.
Qed.
Definition ex60 := mk_rule 5 0 [("VLAN_PCP", (1, None)); ("IPV4_DST", (0x0a000001, None)); ("VLAN_VID", (4097, None))] [SETF "VLAN_PCP" 6; SETF "ETH_SRC" 1; OUTPUT 3].
Definition slotz f := match slot_of f with Some s => s | None => Slot "" 0 0 end.
Lemma slotz_ok f : (match slot_of f with Some _ => true | None => false end) = true -> In (slotz f) layout /\ sl_name (slotz f) = f.
Proof. unfold slotz, slot_of. destruct (find _ layout) as [s|] eqn:E; [|discriminate]. intros _. apply find_some in E as [A B]. apply String.eqb_eq in B. auto. Qed.
Example C60_ex : plain_rule registry_init ex60 /\ Forall no_type_no_group (al_iter (apply_actions (inst (rcore ex60)))) /\
  match reverse_fields false [ex60] registry_init with
  | (_, Ok [c]) => items_view (m_items (rmatch (rcore c))) = [("VLAN_PCP", (4, None)); ("IPV4_DST", (0x80000050, None)); ("VLAN_VID", (4097, None))] /\
      Permutation.Permutation (al_iter (apply_actions (inst (rcore c)))) [SETF "ETH_SRC" (2 ^ 47); SETF "VLAN_PCP" 3; OUTPUT 3]
  | _ => False end.
Proof.
  split; [|split].
  - split; [apply mk_match_ok; vm_compute; reflexivity|]. split.
    + cbn [ex60 mk_rule mk_core rcore rmatch]. assert (E : exists a b c, m_items (mk_match [("VLAN_PCP", (1, None)); ("IPV4_DST", (0x0a000001, None)); ("VLAN_VID", (4097, None))]) =
         [("VLAN_PCP", (1, None, a)); ("IPV4_DST", (0x0a000001, None, b)); ("VLAN_VID", (4097, None, c))]) by (do 3 eexists; vm_compute; reflexivity).
      destruct E as [a [b [c ->]]]. repeat constructor.
      * exists (slotz "VLAN_PCP"). destruct (slotz_ok "VLAN_PCP" eq_refl). split; [auto|]. split; [auto|]. right. cbn [fst snd]. split; [auto|vm_compute; split; congruence].
      * exists (slotz "IPV4_DST"). destruct (slotz_ok "IPV4_DST" eq_refl). split; [auto|]. split; [auto|]. right. cbn [fst snd]. split; [auto|vm_compute; split; congruence].
      * exists (slotz "VLAN_VID"). destruct (slotz_ok "VLAN_VID" eq_refl). split; [auto|]. split; [auto|]. left. reflexivity.
    + exists [SETF "VLAN_PCP" 6; SETF "ETH_SRC" 1; OUTPUT 3]. split; [vm_compute; reflexivity|]. split.
      * repeat constructor; unfold plain_act; intros Q; try discriminate Q; do 2 eexists.
        -- exists (slotz "VLAN_PCP"). destruct (slotz_ok "VLAN_PCP" eq_refl). split; [reflexivity|]. split; [auto|]. split; [auto|]. right. vm_compute; split; congruence.
        -- exists (slotz "ETH_SRC"). destruct (slotz_ok "ETH_SRC" eq_refl). split; [reflexivity|]. split; [auto|]. split; [auto|]. right. vm_compute; split; congruence.
      * intros a b A B. cbn [In] in A, B. unfold compat, comparable. destruct A as [<-|[<-|[<-|[]]]], B as [<-|[<-|[<-|[]]]]; vm_compute; repeat split; discriminate.
  - assert (E : al_iter (apply_actions (inst (rcore ex60))) = [SETF "ETH_SRC" 1; SETF "VLAN_PCP" 6; OUTPUT 3]) by (vm_compute; reflexivity). rewrite E.
    repeat constructor; unfold no_type_no_group; cbn; intuition discriminate.
  - vm_compute. split; [reflexivity|apply Permutation.Permutation_refl].
Qed.
(** Python 3: no ruleset survives. *)
Theorem C60_python3_refuted : forall c rules reg, reverse_fields true (c :: rules) reg = (reg, Err AttributeError).
Proof. exact reverse_py3. Qed.
(** Python 2, a mask: the new mask is the reversed value. The rule matches VLAN_PCP 1 and 5 (mask
    3); reversed, it accepts 7, whose mirror image 7 the original does not. *)
Theorem C60_mask_refuted : exists c c' reg p, reverse_rule false c registry_init = (reg, Ok c') /\ rule_accepts c' p /\ ~ rule_accepts c (mirror_packet p).
Proof.
  pose (c := mk_rule 5 0 [("VLAN_PCP", (1, Some 3))] [OUTPUT 3]).
  assert (E : exists c', reverse_rule false c registry_init = (registry_init, Ok c') /\ items_view (m_items (rmatch (rcore c'))) = [("VLAN_PCP", (4, Some 4))]).
  { eexists. split; [vm_compute; reflexivity|vm_compute; reflexivity]. }
  destruct E as [c' [E1 E2]]. exists c, c', registry_init, (fun _ => true). split; [exact E1|]. destruct (slotz_ok "VLAN_PCP" eq_refl) as [S1 S2].
  assert (B : sl_bits (slotz "VLAN_PCP") = 3) by (vm_compute; reflexivity). split.
  - unfold rule_accepts. rewrite E2. intros it [<-|[]] s A1 A2 j J Q. cbn [fst snd] in *. assert (s = slotz "VLAN_PCP") by (apply slot_name_inj; congruence). subst s. rewrite B in J.
    unfold field_bit. symmetry. exact Q.
  - intros H. assert (V : items_view (m_items (rmatch (rcore c))) = [("VLAN_PCP", (1, Some 3))]) by (vm_compute; reflexivity).
    unfold rule_accepts in H. rewrite V in H. specialize (H _ (or_introl eq_refl) _ S1 S2 1 ltac:(lia) eq_refl). cbn [fst snd] in H. unfold field_bit in H.
    rewrite mirror_packet_bit in H by (auto; lia). rewrite S2 in H. cbn in H. discriminate.
Qed.
(** Only apply_actions are reversed: two rules that do the same, one by applying and one by writing
    its actions, differ afterwards. *)
Definition ex60w := mkRule (mkCore 5 None (mk_match []) (mkInst None al_empty (match as_of [SETF "VLAN_PCP" 1; OUTPUT 3] with Ok l => l | Err _ => al_empty end) None false None) 0) [].
Definition ex60a := mk_rule 5 0 [] [SETF "VLAN_PCP" 1; OUTPUT 3].
Theorem C60_write_refuted : exists r a b a' b' x y, rule_actions a = rule_actions b /\ rule_actions a = Ok x /\ items_view (m_items (rmatch (rcore a))) = items_view (m_items (rmatch (rcore b))) /\
  reverse_fields false [a; b] registry_init = (r, Ok [a'; b']) /\ rule_actions a' = Ok x /\ rule_actions b' = Ok y /\ x <> y.
Proof.
  exists registry_init, ex60w, ex60a. do 4 eexists. split; [vm_compute; reflexivity|]. split; [vm_compute; reflexivity|]. split; [vm_compute; reflexivity|].
  split; [vm_compute; reflexivity|]. split; [vm_compute; reflexivity|]. split; [vm_compute; reflexivity|discriminate].
Qed.
Print Assumptions C60_reverse_partial.
Print Assumptions C60_value.
Print Assumptions C60_python3_refuted.
Print Assumptions C60_mask_refuted.
Print Assumptions C60_write_refuted.
