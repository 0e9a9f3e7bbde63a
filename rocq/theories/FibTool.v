(** Routing tables through check_equivalence. *)
From Coq Require Import Permutation Sorted Lia.
From Coq Require Import ZifyBool ZifyNat.
From Verif Require Import Tool SpecTool SpecFibTool ToolProofs ToolTotal SpecMisc MiscProofs Fib Load SpecLoad MatchProofs MortonProofs WildcardProofs FormatProofs NormaliseProofs MergeProofs EagerProofs SingleTableProofs PriorityProofs
  ActionSetProofs ActionProofs InstProofs ExecProofs LazyProofs PropNormalise PropMerge PropSingle PropTool PropToolTotal PropLoad CompressToolProofs.
Local Open Scope string_scope.
Local Open Scope list_scope.
Local Open Scope Z_scope.
Local Opaque NB WC_FULLWC layout oxm_fields registry_init.

(** ** Addresses *)
Definition address (s : slot) (p : packet) : Z := fold_right (fun j a => (if p (sl_off s + Z.of_nat j) then 2 ^ Z.of_nat j else 0) + a) 0 (seq 0 32).
Lemma sum_bits (f : nat -> bool) k : forall b, let v := fold_right (fun j a => (if f j then 2 ^ Z.of_nat j else 0) + a) 0 (seq b k) in
  exists w, v = 2 ^ Z.of_nat b * w /\ 0 <= w < 2 ^ Z.of_nat k /\ forall j, (j < k)%nat -> Z.testbit w (Z.of_nat j) = f (b + j)%nat.
Proof.
  induction k as [|k IH]; intros b; cbn [seq fold_right].
  - exists 0. split; [lia|]. split; [cbn; lia|]. intros j J. lia.
  - destruct (IH (S b)) as (w & E & R & B). cbv zeta in E. rewrite E. exists ((if f b then 1 else 0) + 2 * w).
    assert (P : 2 ^ Z.of_nat (S b) = 2 * 2 ^ Z.of_nat b) by (rewrite Nat2Z.inj_succ, Z.pow_succ_r; lia).
    assert (Q : 2 ^ Z.of_nat (S k) = 2 * 2 ^ Z.of_nat k) by (rewrite Nat2Z.inj_succ, Z.pow_succ_r; lia).
    split; [destruct (f b); lia|]. split; [destruct (f b); lia|]. intros [|j] J.
    + rewrite Nat.add_0_r. destruct (f b); [|rewrite Z.add_0_l; cbn [Z.of_nat]; rewrite Z.testbit_even_0; reflexivity].
      rewrite Z.add_comm. cbn [Z.of_nat]. apply Z.testbit_odd_0.
    + rewrite Nat2Z.inj_succ. replace (b + S j)%nat with (S b + j)%nat by lia. rewrite <- B by lia.
      destruct (f b); [rewrite Z.add_comm, Z.testbit_odd_succ by lia|rewrite Z.add_0_l, Z.testbit_even_succ by lia]; reflexivity.
Qed.
Lemma has_destination p : exists n, destination p n.
Proof.
  destruct dst_slot as [s [S1 [S2 S3]]]. destruct (sum_bits (fun j => p (sl_off s + Z.of_nat j)) 32 0) as (w & _ & R & B). exists w. split; [exact R|].
  intros s' S1' S2' j J. assert (s' = s) by (apply slot_name_inj; auto; congruence). subst s'. unfold field_bit.
  specialize (B (Z.to_nat j) ltac:(lia)). rewrite Z2Nat.id in B by lia. rewrite B. cbn [Nat.add]. now rewrite Z2Nat.id by lia.
Qed.
Lemma has_packet n : 0 <= n < 2 ^ 32 -> exists p, destination p n.
Proof.
  intros N. destruct dst_slot as [s [S1 [S2 S3]]]. exists (fun i => Z.testbit n (i - sl_off s)). split; [exact N|].
  intros s' S1' S2' j J. assert (s' = s) by (apply slot_name_inj; auto; congruence). subst s'. unfold field_bit. f_equal. lia.
Qed.

(** ** The rules of a table *)
Lemma fib_match_good r ip len : reg_ok r -> 0 <= len <= 32 -> 0 <= ip < 2 ^ 32 ->
  exists m, s_append match_new "IPV4_DST" ip (Some (netmask len)) r = (r, Ok m) /\ match_ok r m /\ no_inner m.
Proof.
  intros R L IP. destruct (fib_match r ip len R L IP) as (m & E & _). destruct (append_runs r match_new "IPV4_DST" ip (Some (netmask len)) R) as (r' & m' & E' & _ & _ & P & _).
  { apply match_new_ok. } rewrite E in E'. injection E' as <- <-. exists m. split; [exact E|]. split; [exact P|].
  destruct dst_slot as [s [S1 [S2 S3]]]. destruct (reg_bits_known r "IPV4_DST" s R S1 S2) as [i D]. rewrite S3 in D.
  unfold s_append, match_append, oxm_name_to_id in E. rewrite D, D in E. destruct (append_norm (Some 32) ip (Some (netmask len))) as [v mk].
  injection E as <-. reflexivity.
Qed.
Definition fib_shape (reg : registry) (c : rule) : Prop := match_ok reg (rmatch (rcore c)) /\ no_inner (rmatch (rcore c)).
Lemma fib_line_shape reg s r line s' : reg_ok reg -> route_line r line -> fib_line s line reg = (reg, Ok s') ->
  exists c, fb_rules s' = fb_rules s ++ [c] /\ fib_shape reg c.
Proof.
  intros R H. destruct (route_read r line H) as [ws [W [P [LEN [IP [w1 [mk [addr [a [b [c [d [I1 [I2 [I3 [I4 [[ta [tb [tc [td [SP [A [B [C D]]]]]]]] V]]]]]]]]]]]]]]]]].
  unfold fib_line, sbind at 1. rewrite W, I1. cbn [rbind]. rewrite I2. cbn [rbind]. rewrite I3. cbn [rbind]. rewrite I4. cbn [rbind]. rewrite SP.
  unfold Fib.item at 1 2 3 4. cbn [nth_error rbind]. rewrite A. cbn [rbind]. rewrite B. cbn [rbind]. rewrite C. cbn [rbind]. rewrite D. cbn [rbind].
  unfold shl. rewrite (proj2 (Z.ltb_ge (32 - ro_len r) 0)) by lia. cbn [rbind slift]. rewrite V. fold (netmask (ro_len r)).
  destruct (fib_match_good reg (weigh 256 (ro_octets r)) (ro_len r) R LEN IP) as [m [E Mo]]. unfold sbind at 1. rewrite E.
  unfold sbind at 1. cbn [slift]. rewrite P. destruct (peer_port (fb_map s) (ro_peer r)) as [k|] eqn:K.
  - unfold sbind at 1. cbn [slift]. rewrite K. unfold sbind at 1. cbn [slift]. rewrite output_append. cbn [sret]. intros [= <-].
    eexists. cbn [fb_rules]. split; [reflexivity|]. exact Mo.
  - unfold sbind at 1. cbn [slift fb_map]. cbn [peer_port]. destruct (text_eqb_spec (ro_peer r) (ro_peer r)) as [_|Q]; [|congruence].
    unfold sbind at 1. cbn [slift]. rewrite output_append. cbn [sret fb_count fb_map fb_rules]. intros [= <-].
    eexists. cbn [fb_rules]. split; [reflexivity|]. exact Mo.
Qed.
Lemma fib_shapes reg rs lines rules : reg_ok reg -> Forall2 route_line rs lines -> ruleset_from_fib lines reg = (reg, Ok rules) -> Forall (fib_shape reg) rules.
Proof.
  intros R F. unfold ruleset_from_fib, sbind, sret.
  assert (G : forall s s', sfold fib_line lines s reg = (reg, Ok s') -> Forall (fib_shape reg) (fb_rules s) -> Forall (fib_shape reg) (fb_rules s')).
  { induction F as [|r line rs lines H F IH]; intros s s' E Hs; cbn [sfold] in E; [injection E as <-; exact Hs|].
    destruct (fib_line_ok reg s r line R H) as (s1 & E1 & _). unfold sbind in E. rewrite E1 in E. apply (IH s1 s' E).
    destruct (fib_line_shape reg s r line s1 R H E1) as (c & -> & Hc). apply Forall_app. auto. }
  destruct (sfold fib_line lines (mkFib 0 [] []) reg) as [r' [s'|e]] eqn:E; [|discriminate]. intros [= -> <-]. apply (G _ _ E). constructor.
Qed.
Lemma route_bounds r line : route_line r line -> 0 <= ro_len r <= 32 /\ 0 <= weigh 256 (ro_octets r) < 2 ^ 32.
Proof. intros H. destruct (route_read r line H) as (ws & _ & _ & L & I & _). auto. Qed.

(** ** Numbers of peers *)
Lemma seen_numbered peers ports : first_seen peers ports -> forall i w k, nth_error peers i = Some w -> nth_error ports i = Some k -> numbered peers w k.
Proof.
  intros [_ H] i. induction i as [i IH] using lt_wf_ind. intros w k A B. destruct (H i w k A B) as [(j & J & A' & B')|[N ->]]; [now apply (IH j J)|].
  apply nth_error_split in A as (l1 & l2 & -> & L). exists l1, l2. rewrite <- L in N |- *. rewrite firstn_app, firstn_all, Nat.sub_diag in N |- *. cbn [firstn] in *. rewrite app_nil_r in *. auto.
Qed.
Lemma split_first {A} (w : A) l1 l2 m1 m2 : l1 ++ w :: l2 = m1 ++ w :: m2 -> ~ In w l1 -> ~ In w m1 -> l1 = m1.
Proof.
  revert m1. induction l1 as [|x l1 IH]; intros [|y m1] E N M; cbn [app] in E; [reflexivity| | |].
  - injection E as -> E. destruct M. now left.
  - injection E as -> E. destruct N. now left.
  - injection E as -> E. f_equal. apply (IH m1 E); intros X; [apply N|apply M]; now right.
Qed.
Lemma numbered_fun peers w k k' : numbered peers w k -> numbered peers w k' -> k = k'.
Proof. intros (l1 & l2 & E & N & ->) (m1 & m2 & E' & M & ->). rewrite E in E'. now rewrite (split_first w l1 l2 m1 m2 E' N M). Qed.
Lemma nodup_prefix {A} (dec : forall x y : A, {x = y} + {x <> y}) l1 w l2 : ~ In w l1 -> (List.length (nodup dec l1) < List.length (nodup dec (l1 ++ w :: l2)))%nat.
Proof.
  intros N. assert (X : (List.length (w :: nodup dec l1) <= List.length (nodup dec (l1 ++ w :: l2)))%nat); [|cbn [List.length] in X; lia].
  apply NoDup_incl_length; [constructor; [now rewrite nodup_In|apply NoDup_nodup]|]. intros x [<-|X]; apply nodup_In, in_app_iff; [right; now left|left; now apply nodup_In in X].
Qed.
Lemma numbered_inj peers w w' k : numbered peers w k -> numbered peers w' k -> w = w'.
Proof.
  intros (l1 & l2 & E & N & ->) (m1 & m2 & E' & M & K). rewrite E in E'. clear E.
  assert (G : forall w w' l1 l2 m1 m2, l1 ++ w :: l2 = m1 ++ w' :: m2 -> (List.length l1 <= List.length m1)%nat -> ~ In w l1 ->
    List.length (nodup (list_eq_dec ascii_dec) l1) = List.length (nodup (list_eq_dec ascii_dec) m1) -> w = w').
  { clear. intros w w' l1 l2 m1 m2 E L N Q. assert (D : m1 = l1 \/ exists x, m1 = l1 ++ w :: x).
    { clear N Q. revert m1 E L. induction l1 as [|a l1 IH]; intros [|b m1] E L; cbn [app List.length] in *; [auto|right; injection E as -> E; eauto|lia|].
      injection E as -> E. destruct (IH m1 E ltac:(lia)) as [->|(x & ->)]; eauto. }
    destruct D as [->|(x & ->)]; [|pose proof (nodup_prefix (list_eq_dec ascii_dec) l1 w x N); lia]. apply app_inv_head in E. now injection E. }
  destruct (Nat.le_ge_cases (List.length l1) (List.length m1)) as [L|L]; [apply (G w w' l1 l2 m1 m2 E' L N); lia|symmetry; apply (G w' w m1 m2 l1 l2 (eq_sym E') L M); lia].
Qed.

(** ** What the pipeline does *)
Definition table_of (reg : registry) (rs : list route) (rules : list rule) : Prop :=
  rs <> [] /\ (forall r, In r rs -> 0 <= ro_len r <= 32 /\ 0 <= weigh 256 (ro_octets r) < 2 ^ 32) /\
  Forall2 (fun r c => (exists k, numbered (map ro_peer rs) (ro_peer r) k /\ fib_rule r k c) /\ fib_shape reg c) rs rules.
Lemma fib_table reg rs lines rules : reg_ok reg -> Forall2 route_line rs lines -> rs <> [] -> ruleset_from_fib lines reg = (reg, Ok rules) -> table_of reg rs rules.
Proof.
  intros R F N E. assert (Sh := fib_shapes reg rs lines rules R F E). destruct (fib_ok reg rs lines R F) as (rules' & ports & E' & FS & L & _ & H).
  rewrite E in E'. injection E' as <-. split; [exact N|]. split.
  { intros r Hr. apply In_nth_error in Hr as (i & I). destruct (nth_error lines i) as [l|] eqn:Q.
    - assert (X : route_line r l). { clear - F I Q. revert i I Q. induction F as [|x y rs ls H F IH]; intros [|i] I Q; try discriminate; cbn [nth_error] in *; [congruence|eauto]. }
      now apply route_bounds in X.
    - exfalso. apply nth_error_None in Q. assert (i < List.length rs)%nat by (apply nth_error_Some; congruence). assert (Y := F2_length _ _ _ F). lia. }
  assert (G : forall i r c, nth_error rs i = Some r -> nth_error rules i = Some c -> exists k, numbered (map ro_peer rs) (ro_peer r) k /\ fib_rule r k c).
  { intros i r c I J. destruct (H i r c I J) as (k & K & FR). exists k. split; [|exact FR]. apply (seen_numbered _ _ FS i); [|exact K]. now rewrite nth_error_map, I. }
  clear - L G Sh. revert G. generalize (map ro_peer rs). intros peers G. revert rs L G. induction Sh as [|c rules Hc Sh IH]; intros [|r rs] L G; cbn [List.length] in L; try discriminate; constructor.
  - split; [apply (G 0%nat); reflexivity|exact Hc].
  - apply IH; [lia|]. intros i. apply (G (S i)).
Qed.
Lemma shape_mono r r' c : rle r r' -> fib_shape r c -> fib_shape r' c.
Proof. intros L [H N]. split; [eapply match_ok_mono; eauto|exact N]. Qed.
Lemma table_mono r r' rs rules : rle r r' -> table_of r rs rules -> table_of r' rs rules.
Proof.
  intros L (N & B & F). split; [exact N|]. split; [exact B|]. revert F. generalize (map ro_peer rs). intros peers F. clear N B. induction F as [|x y l l' [H1 H2] F IH]; constructor; [|exact IH].
  split; [exact H1|]. now apply (shape_mono r).
Qed.
Lemma table_in reg rs rules c : table_of reg rs rules -> In c rules -> exists r k, In r rs /\ fib_rule r k c /\ fib_shape reg c /\ 0 <= ro_len r <= 32 /\ 0 <= weigh 256 (ro_octets r) < 2 ^ 32.
Proof. intros (_ & B & F) H. destruct (forall2_find_r _ _ _ _ F H) as (r & Hr & (k & _ & FR) & Sh). exists r, k. destruct (B r Hr). auto. Qed.
Lemma table_good reg rs rules : table_of reg rs rules -> Forall (good_rule reg true) rules.
Proof.
  intros H. apply Forall_forall. intros c Hc. destruct (table_in _ _ _ _ H Hc) as (r & k & _ & (T0 & Pr & _ & _ & I & _) & [M Ni] & L & _).
  split; [|split; [lia|split; [lia|rewrite I; discriminate]]]. split; [exact M|]. split; [|split; [rewrite I; constructor|intros _; exact Ni]].
  apply (inst_wf_of _ [] [("OUTPUT", VInt k)]); rewrite I; [reflexivity|]. cbn [write_actions]. unfold as_of, as_extend. cbn [rfold]. rewrite output_append. reflexivity.
Qed.
Lemma table_ordinary reg rs rules : table_of reg rs rules -> Forall ordinary_rule rules.
Proof.
  intros H. apply Forall_forall. intros c Hc. destruct (table_in _ _ _ _ H Hc) as (r & k & _ & (_ & _ & _ & _ & I & _) & _). unfold ordinary_rule. rewrite I. split; [constructor|].
  cbn. constructor; [|constructor]. constructor. cbn. tauto.
Qed.
Lemma zero_len n w : 0 <= n < 2 ^ 32 -> 0 <= w < 2 ^ 32 -> n / 2 ^ (32 - 0) = w / 2 ^ (32 - 0).
Proof. intros A B. rewrite !Z.div_small; auto. Qed.
Lemma table_total_tables reg rs rules : table_of reg rs rules -> total_tables rules.
Proof.
  intros H c Hc P0 p. exists c. split; [exact Hc|]. split; [reflexivity|]. destruct (table_in _ _ _ _ H Hc) as (r & k & _ & (_ & Pr & _ & _ & _ & A) & _ & _ & W).
  destruct (has_destination p) as (n & D). apply (A p n D). unfold covers. rewrite <- Pr, P0. apply zero_len; [apply D|exact W].
Qed.
Lemma table_path reg rs rules c : table_of reg rs rules -> In c rules -> path c = [].
Proof. intros H Hc. destruct (table_in _ _ _ _ H Hc) as (r & k & _ & (_ & _ & _ & Q & _) & _). exact Q. Qed.
Lemma table_prio reg rs rules c : table_of reg rs rules -> In c rules -> priority (rcore c) < 2 ^ 16.
Proof. intros H Hc. destruct (table_in _ _ _ _ H Hc) as (r & k & _ & (_ & Q & _) & _ & L & _). rewrite Q. lia. Qed.
Lemma table_start reg rs rules : table_of reg rs rules -> exists c, In c rules /\ table (rcore c) = 0.
Proof.
  intros H. assert (H' := H). destruct H' as (N & _ & F). inversion F as [|r c l l' _ _]; subst; [congruence|]. exists c. split; [now left|].
  destruct (table_in _ _ _ c H (or_introl eq_refl)) as (r' & k & _ & (T0 & _) & _). exact T0.
Qed.

(** every address has a next hop or none *)
Lemma covers_dec r n : {covers r n} + {~ covers r n}.
Proof. apply Z.eq_dec. Qed.
Lemma best_total rs n : (exists r, best_route rs n r) \/ no_route_for rs n.
Proof.
  induction rs as [|x rs IH]; [right; intros r []|]. destruct (covers_dec x n) as [C|C].
  - destruct IH as [(r & l1 & l2 & -> & Cr & H1 & H2)|No].
    + left. destruct (Z_lt_ge_dec (ro_len x) (ro_len r)) as [L|L].
      * exists r, (x :: l1), l2. split; [reflexivity|]. split; [exact Cr|]. split; [|exact H2]. intros y [<-|Y] Cy; [exact L|auto].
      * exists x, [], (l1 ++ r :: l2). split; [reflexivity|]. split; [exact C|]. split; [intros y []|]. intros y Y Cy. apply in_app_iff in Y as [Y|[<-|Y]]; [specialize (H1 y Y Cy)| |specialize (H2 y Y Cy)]; lia.
    + left. exists x, [], rs. split; [reflexivity|]. split; [exact C|]. split; [intros y []|]. intros y Y Cy. destruct (No y Y Cy).
  - destruct IH as [(r & l1 & l2 & -> & Cr & H1 & H2)|No].
    + left. exists r, (x :: l1), l2. split; [reflexivity|]. split; [exact Cr|]. split; [|exact H2]. intros y [<-|Y] Cy; [contradiction|auto].
    + right. intros y [<-|Y]; [exact C|auto].
Qed.
Lemma hop_total reg rs rules n : table_of reg rs rules -> exists x, hop_number rs n x.
Proof.
  intros (_ & _ & F). destruct (best_total rs n) as [(r & B)|No]; [|exists None; exact No].
  assert (I : In r rs) by (destruct B as (l1 & l2 & -> & _); apply in_app_iff; right; now left).
  destruct (forall2_find _ _ _ _ F I) as (c & _ & (k & K & _) & _). exists (Some k), r. auto.
Qed.
Definition sent_to (x : option Z) : list action := match x with Some k => [("OUTPUT", VInt k)] | None => [] end.
Definition po_to (x : option Z) : po_value := match x with Some k => [(k, [("OUTPUT", VInt k)])] | None => [] end.
Lemma po_to_inj x y : po_to x = po_to y -> x = y.
Proof. destruct x, y; cbn; congruence. Qed.
Lemma hop_executes reg rs rules p n x : table_of reg rs rules -> destination p n -> hop_number rs n x -> executes false rules p (sent_to x).
Proof.
  intros H D Hx. destruct x as [k|].
  - destruct Hx as (r & (l1 & l2 & E & C & H1 & H2) & K). assert (TI := fun c => table_in reg rs rules c H). destruct H as (_ & _ & F). revert F K. generalize (map ro_peer rs). intros peers F K.
    rewrite E in F. apply Forall2_app_inv_l in F as (m1 & m2' & F1 & F2 & ->). inversion F2 as [|? c ? m2 [(k' & K' & FR) _] F3]; subst. rewrite (numbered_fun _ _ _ _ K K') in *. clear K.
    destruct FR as (T0 & Pr & _ & _ & I & A).
    exists false, [], (writes_after (inst (rcore c)) []), [("OUTPUT", VInt k')]. split; [|split; [|reflexivity]].
    + replace (@nil action) with (applied_after (inst (rcore c)) []) at 3 by (rewrite I; reflexivity). apply pl_stop; [|rewrite I; reflexivity].
      exists m1, m2. split; [reflexivity|]. split; [exact T0|]. split; [apply (A p n D), C|]. split.
      * intros y Y _ Ay. destruct (forall2_find_r _ _ _ _ F1 Y) as (ry & Iy & (ky & _ & (_ & Py & _ & _ & _ & Ay')) & _). rewrite Pr, Py. apply H1; [exact Iy|]. apply (Ay' p n D), Ay.
      * intros y Y _ Ay. destruct (forall2_find_r _ _ _ _ F3 Y) as (ry & Iy & (ky & _ & (_ & Py & _ & _ & _ & Ay')) & _). rewrite Pr, Py. apply H2; [exact Iy|]. apply (Ay' p n D), Ay.
    + rewrite I. cbn [writes_after clear_actions write_actions app]. change (orig_order (output_set k')) with [("OUTPUT", VInt k')].
      exact (set_inv_list (output_set k') _ (as_of_inv [("OUTPUT", VInt k')] _ (output_append k'))).
  - exists true, [], [], []. split; [|split; [exact (set_inv_list _ _ (as_of_inv [] _ eq_refl))|reflexivity]].
    apply pl_miss. intros c Hc _ Ac. destruct (table_in _ _ _ _ H Hc) as (r & k & Ir & (_ & _ & _ & _ & _ & A) & _). apply (Hx r Ir). apply (A p n D), Ac.
Qed.
Lemma sent_po l x : Permutation (sent_to x) (al_iter l) -> per_output_actions l = Ok (po_to x).
Proof.
  intros H. unfold per_output_actions, per_output_actions_pt. destruct x as [k|]; cbn [sent_to] in H.
  - apply Permutation_length_1_inv in H. rewrite H. reflexivity.
  - apply Permutation_nil in H. rewrite H. reflexivity.
Qed.
Lemma fib_single reg ra ra' rs rules S : reg_ok ra -> rle reg ra -> table_of reg rs rules -> to_single_table (sort_ruleset rules) true ra = (ra', Ok S) ->
  forall p n x, destination p n -> hop_number rs n x -> prescribes S p (Some (po_to x)).
Proof.
  intros R L H E p n x D Hx. apply (table_mono _ _ _ _ L) in H. assert (G := sort_good _ _ _ (table_good _ _ _ H)).
  destruct (single_table_ok _ _ _ _ _ R G (sort_total _ (table_total_tables _ _ _ H)) E p) as (c & Fc & _ & Sem).
  assert (PL : Forall (pool_rule ordinary) (sort_ruleset rules)).
  { apply Forall_forall. intros y Hy. apply (proj1 (in_sort _ _)) in Hy. assert (O := table_ordinary _ _ _ H). rewrite Forall_forall in O. apply (O y Hy). }
  destruct (single_total ordinary ordinary_compat (sort_ruleset rules) true ra R G PL) as (r1 & S1 & E1 & Ps).
  { apply tables_of_in. destruct (table_start _ _ _ H) as (c0 & I0 & T0). exists c0. split; [now apply in_sort|exact T0]. }
  { intros y Hy. apply (proj1 (in_sort _ _)) in Hy. exact (table_prio _ _ _ _ H Hy). }
  rewrite E in E1. injection E1 as <- <-. destruct (single_tables _ _ _ _ _ R G E) as (_ & Gs & _). unfold goods in Gs. rewrite Forall_forall in Gs, Ps.
  assert (Ic := proj1 (NormaliseProofs.first_match_in _ _ _ Fc)). destruct (Gs c Ic) as (_ & (Ia & Iw) & _). destruct (Ps c Ic) as [P1 P2].
  destruct (al_add_total ordinary ordinary_compat _ _ Ia (proj1 Iw) P1 P2) as (l & El).
  assert (T := Sem l _ El (proj2 (sort_executes _ _ _ _) (hop_executes _ _ _ _ _ _ H D Hx))).
  right. exists c, (po_to x). split; [exact Fc|]. split; [|reflexivity]. unfold rule_actions, full_actions. rewrite El. cbn [rbind]. apply sent_po, ateq_perm, T.
Qed.
Lemma fib_same reg rsa rsb A B ra ra' SA rb rb' SB : table_of reg rsa A -> table_of reg rsb B -> rle reg ra -> reg_ok ra -> rle reg rb -> reg_ok rb ->
  to_single_table (sort_ruleset A) true ra = (ra', Ok SA) -> to_single_table (sort_ruleset B) true rb = (rb', Ok SB) ->
  ((forall p x, prescribes SA p x <-> prescribes SB p x) <-> (forall n, 0 <= n < 2 ^ 32 -> forall x, hop_number rsa n x <-> hop_number rsb n x)).
Proof.
  intros HA HB La Ra Lb Rb EA EB. assert (FA := fib_single _ _ _ _ _ _ Ra La HA EA). assert (FB := fib_single _ _ _ _ _ _ Rb Lb HB EB). split; intros Q.
  - assert (X : forall n x y, 0 <= n < 2 ^ 32 -> hop_number rsa n x -> hop_number rsb n y -> x = y).
    { intros n x y N Hx Hy. destruct (has_packet n N) as (p & D). assert (U := prescribes_unique _ _ _ _ (proj1 (Q p _) (FA p n x D Hx)) (FB p n y D Hy)).
      apply po_to_inj. congruence. }
    intros n N x. split; intros Hx.
    + destruct (hop_total _ _ _ n HB) as (y & Hy). now rewrite (X n x y N Hx Hy).
    + destruct (hop_total _ _ _ n HA) as (y & Hy). now rewrite <- (X n y x N Hy Hx).
  - intros p x. destruct (has_destination p) as (n & D). destruct (hop_total _ _ _ n HA) as (y & Hy). assert (Hy' := proj1 (Q n (proj1 D) y) Hy).
    assert (PA := FA p n y D Hy). assert (PB := FB p n y D Hy'). split; intros Px; [rewrite (prescribes_unique _ _ _ _ Px PA); exact PB|rewrite (prescribes_unique _ _ _ _ Px PB); exact PA].
Qed.
(** ** Loading *)
Lemma load_fibs load lns reg names : (forall f, In f names -> exists rules, load f "fib" reg = (reg, Ok rules) /\ ruleset_from_fib (lns f) reg = (reg, Ok rules)) ->
  forall d, NoDup (map fst d) -> (forall n A, In (n, A) d -> ruleset_from_fib (lns n) reg = (reg, Ok A)) ->
  exists d', sfold (load_into load) (map (fun f => (f, "fib")) names) d reg = (reg, Ok d') /\ forall n A, In (n, A) d' -> ruleset_from_fib (lns n) reg = (reg, Ok A).
Proof.
  induction names as [|f names IH]; intros H d N Hd; cbn [map sfold]; [exists d; auto|].
  destruct (H f (or_introl eq_refl)) as (rules & E1 & E2). unfold sbind at 1, load_into at 1. cbn [fst snd]. unfold sbind at 1. rewrite E1. unfold sret at 1.
  apply IH; [intros g Hg; apply H; now right|now apply dict_set_nodup|]. intros n A HnA. apply dict_set_in in HnA as [[-> ->]|[_ HnA]]; auto.
Qed.
