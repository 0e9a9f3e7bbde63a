(** Proofs about the memory limit, routing tables and UniqueRules. *)
From Verif Require Import Limits Fib Unique SpecMisc FormatProofs MortonProofs MatchProofs MatchWcProofs Normalise SpecNormalise NormaliseProofs.
From Coq Require Import ZifyBool ZifyNat ZifyN Sorting.Sorted Permutation.
Local Open Scope string_scope.
Local Open Scope list_scope.
Local Open Scope Z_scope.
Local Opaque NB WC_FULLWC layout oxm_fields registry_init.

(** ** words *)
Lemma blank_space c : blank c <-> is_space c = true.
Proof. unfold blank, is_space. rewrite <- nat_ord. cbn [In]. split; intros H; lia. Qed.
Lemma blank_space_not c : ~ blank c -> is_space c = false.
Proof. intros H. destruct (is_space c) eqn:E; [|auto]. apply blank_space in E. tauto. Qed.
Lemma words_blank s t : Forall blank s -> words_from [] (s ++ t) = words_from [] t.
Proof. induction 1 as [|c s C _ IH]; [reflexivity|]. cbn [app words_from]. apply blank_space in C. rewrite C. exact IH. Qed.
Lemma words_word w : forall cur t, Forall (fun c => ~ blank c) w -> words_from cur (w ++ t) = words_from (cur ++ w) t.
Proof.
  induction w as [|c w IH]; intros cur t W; [now rewrite app_nil_r|]. inversion W as [|? ? C W']; subst. cbn [app words_from].
  rewrite (blank_space_not _ C), IH by auto. now rewrite <- app_assoc.
Qed.
Lemma words_spaced ws line : spaced ws line -> words line = ws.
Proof.
  unfold words. induction 1 as [s S|s w s' S N W S'|s w c l t S N W C H IH].
  - rewrite <- (app_nil_r s), words_blank by auto. reflexivity.
  - rewrite words_blank, words_word by auto. cbn [app]. destruct w as [|x w]; [congruence|]. destruct s' as [|c s']; [reflexivity|].
    inversion S' as [|? ? C S'']; subst. cbn [words_from]. apply blank_space in C. rewrite C. rewrite <- (app_nil_r s'), words_blank by auto. reflexivity.
  - rewrite words_blank, words_word by auto. cbn [app words_from]. apply blank_space in C. rewrite C. destruct w; [congruence|]. now rewrite IH.
Qed.

(** ** C53 *)
Lemma mem_free_found pre line post kb : Forall (fun l => ~ mentions (T "MemFree") l) pre -> mem_free_line line kb -> mem_free_kb (pre ++ line :: post) = Ok (Some kb).
Proof.
  intros P [M [w0 [w [rest [S N]]]]]. induction P as [|l pre L P IH]; cbn [app mem_free_kb].
  - change (list_ascii_of_string "MemFree") with (T "MemFree") in M. rewrite (proj2 (contains_spec _ _) M), (words_spaced _ _ S), (py_int_numeral 10 w kb); [reflexivity|lia|lia|auto].
  - destruct (contains (T "MemFree") l) eqn:E; [apply contains_spec in E; contradiction|auto].
Qed.
Lemma mem_free_none lines : Forall (fun l => ~ mentions (T "MemFree") l) lines -> mem_free_kb lines = Ok None.
Proof. induction 1 as [|l ls L P IH]; [reflexivity|]. cbn [mem_free_kb]. destruct (contains (T "MemFree") l) eqn:E; [apply contains_spec in E; contradiction|auto]. Qed.
Lemma limit_respects m_min perc res free : let l := Z.max (free - Z.min (perc * free / 100) res) m_min in
  respects m_min perc res free l /\ forall l', respects m_min perc res free l' -> l <= l'.
Proof.
  cbv zeta. unfold respects. pose proof (Z.div_mod (perc * free) 100 ltac:(lia)). pose proof (Z.mod_pos_bound (perc * free) 100 ltac:(lia)).
  split; [lia|]. intros l' H1. lia.
Qed.

(** ** C57 *)
Section UniqueProofs.
  Context {M : Type} (m : M).
  Definition go_run := fix go (l : list stmt) (s : cls M) : cls M * list (option M) * bool :=
          match l with
          | [] => (s, [], false)
          | c :: l' => let '(s1, t1, e1) := run c s in
                       if e1 then (s1, t1, true) else let '(s2, t2, e2) := go l' s1 in (s2, t1 ++ t2, e2)
          end.
  Lemma go_run_list l : forall s, go_run l s = run_list l s.
  Proof. induction l as [|c l IH]; intros s; [reflexivity|]. cbn [go_run run_list]. destruct (run c s) as [[s1 t1] e1]. destruct e1; [reflexivity|]. now rewrite IH. Qed.
  Lemma run_with o body (s : cls M) : run (With o body) s = let '(s', t, e) := run_list body (enter o s) in (exit o s', t, e).
  Proof. cbn [run]. fold go_run. now rewrite go_run_list. Qed.
  Definition go_expect := (fix go (l : list stmt) : list (option M) * bool :=
         match l with
         | [] => ([], false)
         | c :: l' => let '(t, e) := expect m true c in if e then (t, true) else let '(t', e') := go l' in (t ++ t', e')
         end).
  Lemma expect_with o body b : expect m b (With o body) = expect_list m true body.
  Proof.
    cbn [expect]. fold go_expect. induction body as [|c l IH]; [reflexivity|]. cbn [go_expect expect_list].
    destruct (expect m true c) as [t e]. destruct e; [reflexivity|]. now rewrite IH.
  Qed.
  (** induction on statements *)
  Fixpoint stmt_ind' (P : stmt -> Prop) (H1 : P Look) (H2 : P Raise) (H3 : forall o body, Forall P body -> P (With o body)) (c : stmt) : P c :=
    match c with
    | Look => H1
    | Raise => H2
    | With o body => H3 o body ((fix go l : Forall P l := match l with [] => Forall_nil _ | x :: t => Forall_cons _ (stmt_ind' P H1 H2 H3 x) (go t) end) body)
    end.
  (** objects that have saved something *)
  Definition used (s : cls M) (o : nat) : Prop := In o (map fst (saved s)).
  Lemma old_unused s o : ~ used s o -> old (saved s) o = None.
  Proof.
    unfold used. induction (saved s) as [|[k x] l IH]; [reflexivity|]. cbn [map fst In old]. intros H. destruct (Nat.eqb_spec k o); [tauto|]. apply IH. tauto.
  Qed.
  (** running inside a block (own = None) with unused objects changes nothing *)
  Definition inside_ok (c : stmt) : Prop := forall s : cls M, own s = None -> (forall o, In o (objects c) -> ~ used s o) ->
    run c s = (s, fst (expect m true c), snd (expect m true c)).
  Lemma inside_list l : Forall inside_ok l -> forall s, own s = None -> (forall o, In o (flat_map objects l) -> ~ used s o) ->
    run_list l s = (s, fst (expect_list m true l), snd (expect_list m true l)).
  Proof.
    induction 1 as [|c l C L IH]; intros s O U; [reflexivity|]. cbn [run_list expect_list flat_map] in *.
    rewrite C by (auto; intros o J; apply U; apply in_or_app; auto). destruct (expect m true c) as [t e]. cbn [fst snd].
    destruct e; [reflexivity|]. rewrite IH by (auto; intros o J; apply U; apply in_or_app; auto). destruct (expect_list m true l) as [t' e']. reflexivity.
  Qed.
  Lemma inside c : inside_ok c.
  Proof.
    induction c as [| |o body B] using stmt_ind'; intros s O U.
    - cbn. rewrite O. reflexivity.
    - reflexivity.
    - rewrite run_with, expect_with. unfold enter. rewrite O. rewrite (inside_list body B s O) by (intros o' J; apply U; cbn [objects]; now right).
      unfold exit. rewrite old_unused by (apply U; cbn [objects]; now left). reflexivity.
  Qed.
  Lemma outside c : forall s, own s = Some m -> (forall o, In o (objects c) -> ~ used s o) -> NoDup (objects c) ->
    exists s', run c s = (s', fst (expect m false c), snd (expect m false c)) /\ own s' = Some m /\ (forall o, used s' o -> used s o \/ In o (objects c)).
  Proof.
    destruct c as [| |o body]; intros s O U D.
    - exists s. cbn. rewrite O. auto.
    - exists s. auto.
    - rewrite run_with, expect_with. unfold enter. rewrite O. set (s1 := mkCls None ((o, m) :: saved s)).
      rewrite (inside_list body); [|apply Forall_forall; intros c _; apply inside|reflexivity|].
      + unfold exit. cbn [s1 saved old]. rewrite Nat.eqb_refl. eexists. split; [reflexivity|]. split; [reflexivity|].
        unfold used, s1. cbn [saved map fst In objects]. tauto.
      + inversion D as [|? ? D1 D2]; subst. intros o' J [Q|Q]; [cbn in Q; congruence|]. apply (U o'); [cbn [objects]; now right|exact Q].
  Qed.
  Lemma outside_list l : forall s, own s = Some m -> (forall o, In o (flat_map objects l) -> ~ used s o) -> NoDup (flat_map objects l) ->
    exists s', run_list l s = (s', fst (expect_list m false l), snd (expect_list m false l)) /\ own s' = Some m.
  Proof.
    induction l as [|c l IH]; intros s O U D; [exists s; auto|]. cbn [flat_map run_list expect_list] in *.
    assert (Dc : NoDup (objects c) /\ NoDup (flat_map objects l) /\ forall o, In o (objects c) -> ~ In o (flat_map objects l)).
    { clear - D. induction (objects c) as [|x xs IH]; cbn [app] in D; [repeat split; [constructor|auto|intros ? []]|].
      inversion D as [|? ? D1 D2]; subst. destruct (IH D2) as [A [B C]]. rewrite in_app_iff in D1. split; [constructor; tauto|]. split; [auto|].
      intros o [<-|J]; [tauto|auto]. }
    destruct Dc as [D1 [D2 D3]]. destruct (outside c s O ltac:(intros o J; apply U, in_or_app; auto) D1) as [s1 [E [O1 U1]]].
    rewrite E. destruct (expect m false c) as [t e]. cbn [fst snd]. destruct e; [exists s1; auto|].
    destruct (IH s1 O1) as [s2 [E2 O2]]; [|auto|].
    - intros o J Q. destruct (U1 o Q) as [Q'|Q']; [apply (U o); [apply in_or_app; auto|auto]|apply (D3 o); auto].
    - rewrite E2. destruct (expect_list m false l) as [t' e']. exists s2. auto.
  Qed.
End UniqueProofs.

(** ** C56 *)
Lemma text_eqb_spec a : forall b, reflect (a = b) (text_eqb a b).
Proof.
  induction a as [|x a IH]; intros [|y b]; cbn [text_eqb]; try (constructor; congruence).
  destruct (Ascii.eqb_spec x y) as [Q|N]; cbn [andb]; [|constructor; congruence]. destruct (IH b); constructor; congruence.
Qed.
Lemma slash_not_digit : forall d, ~ In ("/"%char, d) digit_table.
Proof. intros d H. apply table_facts in H as [H _]. vm_compute in H. discriminate H. Qed.
Lemma separated_not_in (sep x : ascii) l : x <> sep -> Forall (fun w => ~ In x w) l -> ~ In x (separated sep l).
Proof.
  intros N. induction 1 as [|w l W L IH]; [tauto|]. cbn [separated]. intros J. apply in_app_or in J as [J|J]; [tauto|].
  destruct l; [destruct J|]. destruct J as [J|J]; [congruence|auto].
Qed.
Definition netmask (len : Z) : Z := Z.land (Z.shiftl IP_MASK (32 - len)) IP_MASK.
Lemma netmask_bits len j : 0 <= len <= 32 -> 0 <= j < 32 -> Z.testbit (netmask len) j = (32 - len <=? j).
Proof.
  intros L J. unfold netmask, IP_MASK. change 0xFFFFFFFF with (Z.ones 32). rewrite Z.land_spec, Z.shiftl_spec, (ones_testbit 32 j) by lia.
  destruct (Z_lt_ge_dec j (32 - len)) as [A|A]; [rewrite Z.testbit_neg_r by lia|rewrite ones_testbit by lia]; lia.
Qed.
Lemma netmask_range len : 0 <= netmask len < 2 ^ 32.
Proof.
  unfold netmask, IP_MASK. change 0xFFFFFFFF with (Z.ones 32). rewrite Z.land_ones by lia. apply Z.mod_pos_bound. lia.
Qed.
Lemma dst_slot : exists s, In s layout /\ sl_name s = "IPV4_DST" /\ sl_bits s = 32.
Proof.
  assert (E : match find (fun s => String.eqb (sl_name s) "IPV4_DST") layout with Some s => sl_bits s =? 32 | None => false end = true) by (vm_compute; reflexivity).
  destruct (find _ layout) as [s|] eqn:F; [|discriminate E]. apply find_some in F as [F1 F2]. apply String.eqb_eq in F2. exists s. repeat split; auto. lia.
Qed.
Lemma high_bits a b k : 0 <= k <= 32 -> 0 <= a < 2 ^ 32 -> 0 <= b < 2 ^ 32 ->
  (a / 2 ^ k = b / 2 ^ k <-> forall j, k <= j < 32 -> Z.testbit a j = Z.testbit b j).
Proof.
  intros K A B. rewrite <- !Z.shiftr_div_pow2 by lia. split.
  - intros E j J. replace j with (j - k + k) by lia. rewrite <- !Z.shiftr_spec by lia. now rewrite E.
  - intros H. apply Z.bits_inj'. intros i I. rewrite !Z.shiftr_spec by lia. destruct (Z_lt_ge_dec (i + k) 32) as [L|L]; [apply H; lia|].
    rewrite (testbit_small a 32), (testbit_small b 32) by lia. reflexivity.
Qed.
(** the single item of the match *)
Lemma fib_match r ip len : reg_ok r -> 0 <= len <= 32 -> 0 <= ip < 2 ^ 32 ->
  exists m, s_append match_new "IPV4_DST" ip (Some (netmask len)) r = (r, Ok m) /\
  forall p n, destination p n -> (match_accepts (items_view (m_items m)) p <-> n / 2 ^ (32 - len) = ip / 2 ^ (32 - len)).
Proof.
  intros R L IP. destruct dst_slot as [s [S1 [S2 S3]]]. destruct (reg_bits_known r "IPV4_DST" s R S1 S2) as [i D]. rewrite S3 in D.
  unfold s_append, match_append, oxm_name_to_id. rewrite D, D. destruct (append_norm (Some 32) ip (Some (netmask len))) as [v mk] eqn:E.
  eexists. split; [reflexivity|]. intros p n [N P]. cbn [m_items match_new dict_set items_view map].
  rewrite high_bits by lia. pose proof (netmask_range len) as NR.
  assert (G : forall j, 0 <= j < 32 -> (match mk with None => true | Some m => Z.testbit m j end = (32 - len <=? j)) /\ (32 - len <= j -> Z.testbit v j = Z.testbit ip j)).
  { intros j J. unfold append_norm in E. cbn [Z.eqb orb] in E. destruct (Z.eqb_spec (netmask len) 0) as [Z0|Z0].
    - injection E as <- <-. split; [apply netmask_bits; auto|reflexivity].
    - assert (M : Z.land (netmask len) (2 ^ 32 - 1) = netmask len) by (change (2 ^ 32 - 1) with (Z.ones 32); rewrite Z.land_ones, Z.mod_small by lia; reflexivity).
      rewrite M in E. injection E as <- <-. split.
      + destruct (Z.eqb_spec (netmask len) 4294967295) as [Q|Q]; [|apply netmask_bits; auto]. rewrite <- netmask_bits by auto. rewrite Q.
        change 4294967295 with (Z.ones 32). rewrite ones_testbit by lia. lia.
      + intros K. rewrite Z.land_spec, netmask_bits by auto. rewrite (proj2 (Z.leb_le _ _)) by lia. apply andb_true_r. }
  split.
  - intros H j J. assert (I : item_accepts ("IPV4_DST", (v, mk)) p) by (apply H; now left). destruct (G j ltac:(lia)) as [G1 G2].
    rewrite <- (P s S1 S2 j ltac:(lia)), <- (G2 ltac:(lia)). apply (I s S1 S2 j); [lia|]. cbn [snd]. rewrite G1. lia.
  - intros H it [<-|[]] s' S' Q j J. cbn [fst snd] in *. assert (s' = s) by (apply slot_name_inj; auto; congruence). subst s'. rewrite S3 in J.
    destruct (G j J) as [G1 G2]. rewrite G1. intros K. rewrite (P s S1 S2 j J), (G2 ltac:(lia)). apply H. lia.
Qed.

(** the line is read as intended *)
Lemma route_read r line : route_line r line -> exists ws, words line = ws /\ item ws 2 = Ok (ro_peer r) /\ 0 <= ro_len r <= 32 /\ 0 <= weigh 256 (ro_octets r) < 2 ^ 32 /\
  exists w1 mk addr a b c d, item ws 1 = Ok w1 /\ item (Text.split "/" w1) 1 = Ok mk /\ py_int 10 mk = Ok (ro_len r) /\ item (Text.split "/" w1) 0 = Ok addr /\
  (exists ta tb tc td, Text.split "." addr = [ta; tb; tc; td] /\ py_int 10 ta = Ok a /\ py_int 10 tb = Ok b /\ py_int 10 tc = Ok c /\ py_int 10 td = Ok d) /\
  Z.lor (Z.lor (Z.lor (Z.shiftl a 24) (Z.shiftl b 16)) (Z.shiftl c 8)) d = weigh 256 (ro_octets r).
Proof.
  intros [star [ws [lt [rest [S [F [L [O [N K]]]]]]]]]. destruct r as [oct len peer]. cbn [ro_octets ro_len ro_peer] in *.
  destruct ws as [|ta [|tb [|tc [|td [|]]]]]; try discriminate L. inversion F as [|? a ? oct1 Na F1]; subst. inversion F1 as [|? b ? oct2 Nb F2]; subst.
  inversion F2 as [|? c ? oct3 Nc F3]; subst. inversion F3 as [|? d ? oct4 Nd F4]; subst. inversion F4; subst.
  inversion O as [|? ? A O1]; subst. inversion O1 as [|? ? B O2]; subst. inversion O2 as [|? ? C O3]; subst. inversion O3 as [|? ? D _]; subst.
  eexists. split; [reflexivity|]. rewrite (words_spaced _ _ S). split; [reflexivity|]. split; [pose proof (numeral_nonneg 10 _ _ ltac:(lia) N); lia|].
  split; [unfold weigh; cbn [fold_left]; lia|].
  assert (SL : Text.split "/" (separated "." [ta; tb; tc; td] ++ "/"%char :: lt) = [separated "." [ta; tb; tc; td]; lt]).
  { rewrite split_app; [f_equal; apply split_word; eapply numeral_not_in; [exact N|apply slash_not_digit]|].
    apply separated_not_in; [discriminate|]. repeat constructor; eapply numeral_not_in; eauto using slash_not_digit. }
  exists (separated "." [ta; tb; tc; td] ++ "/"%char :: lt), lt, (separated "." [ta; tb; tc; td]), a, b, c, d.
  split; [reflexivity|]. rewrite SL. split; [reflexivity|]. split; [apply py_int_numeral; [lia|lia|auto]|]. split; [reflexivity|]. split.
  - exists ta, tb, tc, td. split; [eapply split_numerals; [apply dot_not_digit|discriminate|exact F]|]. repeat split; apply py_int_numeral; auto; lia.
  - apply quad_value; auto.
Qed.
Lemma peer_port_spec d k v : peer_port d k = Some v -> In (k, v) d.
Proof. induction d as [|[k' v'] d IH]; cbn [peer_port]; [discriminate|]. destruct (text_eqb_spec k' k) as [Q|Q]; [intros [= <-]; subst; now left|right; auto]. Qed.
Lemma peer_port_none d k : peer_port d k = None <-> ~ In k (map fst d).
Proof.
  induction d as [|[k' v'] d IH]; cbn [peer_port map fst In]; [tauto|]. destruct (text_eqb_spec k' k) as [Q|Q]; [split; [discriminate|tauto]|]. rewrite IH. tauto.
Qed.
Definition output_set (k : Z) : alist := mkAL [("OUTPUT", VInt k)] [[("OUTPUT", VInt k)]].
Lemma output_append k : as_append al_empty ("OUTPUT", VInt k) = Ok (output_set k).
Proof. reflexivity. Qed.
(** one line, in full *)
Definition fib_rule (r : route) (k : Z) (c : rule) : Prop :=
  table (rcore c) = 0 /\ priority (rcore c) = ro_len r /\ cookie (rcore c) = None /\ path c = [] /\
  inst (rcore c) = mkInst None al_empty (output_set k) None false None /\
  forall p n, destination p n -> (rule_accepts c p <-> covers r n).
Lemma fib_line_ok reg s r line : reg_ok reg -> route_line r line ->
  exists s', fib_line s line reg = (reg, Ok s') /\
  exists k c, peer_port (fb_map s') (ro_peer r) = Some k /\ fb_rules s' = fb_rules s ++ [c] /\ fib_rule r k c /\
    ((peer_port (fb_map s) (ro_peer r) = Some k /\ fb_map s' = fb_map s /\ fb_count s' = fb_count s) \/
     (peer_port (fb_map s) (ro_peer r) = None /\ k = fb_count s + 1 /\ fb_map s' = (ro_peer r, k) :: fb_map s /\ fb_count s' = k)).
Proof.
  intros R H. destruct (route_read r line H) as [ws [W [P [LEN [IP [w1 [mk [addr [a [b [c [d [I1 [I2 [I3 [I4 [[ta [tb [tc [td [SP [A [B [C D]]]]]]]] V]]]]]]]]]]]]]]]]].
  unfold fib_line, sbind at 1. rewrite W, I1. cbn [rbind]. rewrite I2. cbn [rbind]. rewrite I3. cbn [rbind]. rewrite I4. cbn [rbind]. rewrite SP.
  unfold item at 1 2 3 4. cbn [nth_error rbind]. rewrite A. cbn [rbind]. rewrite B. cbn [rbind]. rewrite C. cbn [rbind]. rewrite D. cbn [rbind].
  unfold shl. rewrite (proj2 (Z.ltb_ge (32 - ro_len r) 0)) by lia. cbn [rbind slift]. rewrite V. fold (netmask (ro_len r)).
  destruct (fib_match reg (weigh 256 (ro_octets r)) (ro_len r) R LEN IP) as [m [E M]]. unfold sbind at 1. rewrite E.
  unfold sbind at 1. cbn [slift]. rewrite P. destruct (peer_port (fb_map s) (ro_peer r)) as [k|] eqn:K.
  - unfold sbind at 1. cbn [slift]. rewrite K. unfold sbind at 1. cbn [slift]. rewrite output_append. cbn [sret].
    eexists. split; [reflexivity|]. exists k. eexists. split; [exact K|]. split; [reflexivity|]. split; [|left; auto].
    unfold fib_rule, rule_accepts, covers. cbn [rcore table priority cookie path inst rmatch]. repeat (split; [reflexivity|]). intros p n Q. apply M; auto.
  - unfold sbind at 1. cbn [slift fb_map]. cbn [peer_port]. destruct (text_eqb_spec (ro_peer r) (ro_peer r)) as [_|Q]; [|congruence].
    unfold sbind at 1. cbn [slift]. rewrite output_append. cbn [sret fb_count fb_map fb_rules].
    eexists. split; [reflexivity|]. exists (fb_count s + 1). eexists. cbn [fb_map fb_rules fb_count peer_port].
    split; [destruct (text_eqb_spec (ro_peer r) (ro_peer r)) as [_|Q]; [reflexivity|congruence]|]. split; [reflexivity|]. split; [|right; auto].
    unfold fib_rule, rule_accepts, covers. cbn [rcore table priority cookie path inst rmatch]. repeat (split; [reflexivity|]). intros p n Q. apply M; auto.
Qed.

(** the loop: what has been read so far *)
Definition fib_inv (rs : list route) (s : fib) : Prop :=
  exists ports, Forall2 (fun x c => fib_rule (fst x) (snd x) c) (combine rs ports) (fb_rules s) /\
  List.length ports = List.length rs /\ first_seen (map ro_peer rs) ports /\
  (forall w k, peer_port (fb_map s) w = Some k <-> exists i, nth_error (map ro_peer rs) i = Some w /\ nth_error ports i = Some k) /\
  fb_count s = Z.of_nat (List.length (nodup (list_eq_dec ascii_dec) (map ro_peer rs))) /\
  (forall w w' k, peer_port (fb_map s) w = Some k -> peer_port (fb_map s) w' = Some k -> w = w') /\
  (forall w k, peer_port (fb_map s) w = Some k -> 1 <= k <= fb_count s).
Lemma nodup_snoc (l : list text) w : List.length (nodup (list_eq_dec ascii_dec) (l ++ [w])) =
  (List.length (nodup (list_eq_dec ascii_dec) l) + if in_dec (list_eq_dec ascii_dec) w l then 0 else 1)%nat.
Proof.
  induction l as [|x l IH]; [reflexivity|]. cbn [app nodup].
  destruct (in_dec (list_eq_dec ascii_dec) x (l ++ [w])) as [A|A]; destruct (in_dec (list_eq_dec ascii_dec) x l) as [B|B].
  - rewrite IH. destruct (in_dec _ w l) as [C|C]; destruct (in_dec _ w (x :: l)) as [D|D]; try lia; exfalso; [apply D; now right|].
    destruct D as [->|D]; tauto.
  - assert (x = w) by (apply in_app_or in A as [A|[A|[]]]; [tauto|congruence]). subst x. cbn [List.length]. rewrite IH.
    destruct (in_dec _ w l) as [C|C]; [tauto|]. destruct (in_dec _ w (w :: l)) as [D|D]; [lia|]. exfalso. apply D. now left.
  - exfalso. apply A. apply in_or_app. auto.
  - cbn [List.length]. rewrite IH. assert (x <> w) by (intros ->; apply A, in_or_app; right; now left).
    destruct (in_dec _ w l) as [C|C]; destruct (in_dec _ w (x :: l)) as [D|D]; try lia; exfalso; [apply D; now right|].
    destruct D as [D|D]; [congruence|tauto].
Qed.
Lemma nth_snoc {X} (l : list X) x i y : nth_error (l ++ [x]) i = Some y <-> nth_error l i = Some y \/ (i = List.length l /\ x = y).
Proof.
  destruct (Nat.lt_ge_cases i (List.length l)) as [L|L].
  - rewrite nth_error_app1 by auto. split; [auto|]. intros [H|[H _]]; [auto|lia].
  - rewrite nth_error_app2 by auto. assert (N : nth_error l i = None) by now apply nth_error_None. rewrite N.
    destruct (i - List.length l)%nat as [|k] eqn:E; cbn [nth_error].
    + split; [intros [= <-]; right; split; [lia|auto]|]. intros [H|[_ ->]]; [discriminate|auto].
    + split; [intros H; destruct k; discriminate|]. intros [H|[H _]]; [discriminate|lia].
Qed.
Lemma combine_snoc {X Y} (l : list X) (l' : list Y) x y : List.length l = List.length l' -> combine (l ++ [x]) (l' ++ [y]) = combine l l' ++ [(x, y)].
Proof. revert l'. induction l as [|a l IH]; intros [|b l'] H; try discriminate; [reflexivity|]. cbn [app combine]. rewrite IH; auto. Qed.
Lemma fib_step reg rs s r line : reg_ok reg -> fib_inv rs s -> route_line r line -> exists s', fib_line s line reg = (reg, Ok s') /\ fib_inv (rs ++ [r]) s'.
Proof.
  intros R [ports [F [L [[_ FS] [MP [CN [INJ BD]]]]]]] H. destruct (fib_line_ok reg s r line R H) as [s' [E [k [c [K [RU [FR D]]]]]]].
  exists s'. split; [auto|]. exists (ports ++ [k]).
  assert (LP : List.length (map ro_peer rs) = List.length rs) by apply map_length.
  assert (KNOWN : peer_port (fb_map s) (ro_peer r) = None -> ~ In (ro_peer r) (map ro_peer rs)).
  { intros Q J. apply In_nth_error in J as [i I]. destruct (nth_error ports i) as [k'|] eqn:E2.
    - assert (X : peer_port (fb_map s) (ro_peer r) = Some k') by (apply MP; eauto). congruence.
    - apply nth_error_None in E2. assert (nth_error (map ro_peer rs) i <> None) by congruence. apply nth_error_Some in H0. lia. }
  split; [|split; [rewrite !app_length; cbn [List.length]; lia|]].
  { rewrite RU, combine_snoc by auto. apply Forall2_app; [auto|]. constructor; [exact FR|constructor]. }
  assert (CNT : fb_count s' = Z.of_nat (List.length (nodup (list_eq_dec ascii_dec) (map ro_peer (rs ++ [r]))))).
  { rewrite map_app. cbn [map]. rewrite nodup_snoc. destruct D as [[D1 [D2 D3]]|[D1 [D2 [D3 D4]]]].
    - destruct (in_dec _ (ro_peer r) (map ro_peer rs)) as [J|J]; [lia|]. exfalso. apply J. apply MP in D1 as [i [I _]]. eapply nth_error_In; eauto.
    - destruct (in_dec _ (ro_peer r) (map ro_peer rs)) as [J|J]; [apply KNOWN in D1; tauto|lia]. }
  split; [|split; [|split; [exact CNT|]]].
  - split; [rewrite map_length, !app_length; cbn [List.length]; lia|]. intros i w k'. rewrite map_app. cbn [map]. rewrite !nth_snoc.
    intros [I|[I1 I2]] [J|[J1 J2]].
    + destruct (FS i w k' I J) as [[j [J1 [J2 J3]]]|[J1 J2]].
      * left. exists j. rewrite !nth_snoc. auto.
      * right. assert (i < List.length (map ro_peer rs))%nat by (apply nth_error_Some; congruence).
        rewrite firstn_app. replace (i - List.length (map ro_peer rs))%nat with 0%nat by lia. cbn [firstn]. rewrite app_nil_r. auto.
    + assert (i < List.length (map ro_peer rs))%nat by (apply nth_error_Some; congruence). lia.
    + assert (i < List.length ports)%nat by (apply nth_error_Some; congruence). lia.
    + subst w k'. destruct D as [[D1 [D2 D3]]|[D1 [D2 [D3 D4]]]].
      * left. apply MP in D1 as [j [Q1 Q2]]. exists j. rewrite !nth_snoc. split; [|auto].
        assert (j < List.length (map ro_peer rs))%nat by (apply nth_error_Some; congruence). lia.
      * right. rewrite I1, firstn_app, Nat.sub_diag, firstn_all. cbn [firstn]. rewrite app_nil_r. split; [auto|lia].
  - intros w k'. rewrite map_app. cbn [map]. split.
    + intros Q. destruct D as [[D1 [D2 D3]]|[D1 [D2 [D3 D4]]]].
      * rewrite D2 in Q. apply MP in Q as [i [Q1 Q2]]. exists i. rewrite !nth_snoc. auto.
      * rewrite D3 in Q. cbn [peer_port] in Q. destruct (text_eqb_spec (ro_peer r) w) as [W|W].
        -- injection Q as <-. exists (List.length (map ro_peer rs)). rewrite !nth_snoc. split; right; split; auto; lia.
        -- apply MP in Q as [i [Q1 Q2]]. exists i. rewrite !nth_snoc. auto.
    + intros [i [Q1 Q2]]. apply nth_snoc in Q1. apply nth_snoc in Q2.
      assert (OLD : nth_error (map ro_peer rs) i = Some w -> nth_error ports i = Some k' -> peer_port (fb_map s') w = Some k').
      { intros A B. assert (X : peer_port (fb_map s) w = Some k') by (apply MP; eauto). destruct D as [[D1 [D2 D3]]|[D1 [D2 [D3 D4]]]]; [congruence|].
        rewrite D3. cbn [peer_port]. destruct (text_eqb_spec (ro_peer r) w) as [W|W]; [congruence|auto]. }
      destruct Q1 as [Q1|[Q1 Q1']], Q2 as [Q2|[Q2 Q2']]; auto.
      * assert (i < List.length (map ro_peer rs))%nat by (apply nth_error_Some; congruence). lia.
      * assert (i < List.length ports)%nat by (apply nth_error_Some; congruence). lia.
      * congruence.
  - destruct D as [[D1 [D2 D3]]|[D1 [D2 [D3 D4]]]].
    + rewrite D2, D3. auto.
    + rewrite D3, D4. split.
      * intros w w' k'. cbn [peer_port]. destruct (text_eqb_spec (ro_peer r) w) as [W|W]; destruct (text_eqb_spec (ro_peer r) w') as [W'|W']; [congruence| | |eauto];
          intros Q1 Q2; [injection Q1 as <-; apply BD in Q2|injection Q2 as <-; apply BD in Q1]; lia.
      * intros w k'. cbn [peer_port]. destruct (text_eqb_spec (ro_peer r) w) as [W|W]; [intros [= <-]; lia|]. intros Q. apply BD in Q. lia.
Qed.
Lemma fib_loop reg rs lines : reg_ok reg -> Forall2 route_line rs lines -> forall rs0 s, fib_inv rs0 s -> exists s', sfold fib_line lines s reg = (reg, Ok s') /\ fib_inv (rs0 ++ rs) s'.
Proof.
  intros R. induction 1 as [|r line rs lines H F IH]; intros rs0 s I; cbn [sfold].
  - exists s. rewrite app_nil_r. auto.
  - destruct (fib_step reg rs0 s r line R I H) as [s1 [E1 I1]]. destruct (IH (rs0 ++ [r]) s1 I1) as [s2 [E2 I2]].
    exists s2. unfold sbind. rewrite E1, E2, <- app_assoc in *. auto.
Qed.
Lemma fib_ok reg rs lines : reg_ok reg -> Forall2 route_line rs lines ->
  exists rules ports, ruleset_from_fib lines reg = (reg, Ok rules) /\ first_seen (map ro_peer rs) ports /\ List.length rules = List.length rs /\
  (forall i j w w' k k', nth_error (map ro_peer rs) i = Some w -> nth_error (map ro_peer rs) j = Some w' -> nth_error ports i = Some k -> nth_error ports j = Some k' -> (w = w' <-> k = k')) /\
  forall i r c, nth_error rs i = Some r -> nth_error rules i = Some c -> exists k, nth_error ports i = Some k /\ fib_rule r k c.
Proof.
  intros R F. destruct (fib_loop reg rs lines R F [] (mkFib 0 [] [])) as [s [E [ports [G [L [FS [MP [CN [INJ BD]]]]]]]]].
  { exists []. cbn. split; [constructor|]. split; [reflexivity|]. split; [split; [reflexivity|intros [|i]; discriminate]|]. split; [|split; [reflexivity|split; discriminate]].
    intros w k. split; [discriminate|]. intros [[|i] [Q _]]; discriminate. }
  cbn [app] in *. exists (fb_rules s), ports. unfold ruleset_from_fib, sbind. rewrite E. split; [reflexivity|]. split; [auto|].
  assert (LC : List.length (combine rs ports) = List.length rs) by (rewrite combine_length; lia).
  split; [rewrite <- (F2_length _ _ _ G); auto|]. split.
  - intros i j w w' k k' A B C D. assert (P1 : peer_port (fb_map s) w = Some k) by (apply MP; eauto). assert (P2 : peer_port (fb_map s) w' = Some k') by (apply MP; eauto).
    split; [intros <-; congruence|intros <-; eauto].
  - clear - G L. revert ports L G. generalize (fb_rules s). induction rs as [|x rs IH]; intros rules ports L G i r c A B; [destruct i; discriminate|].
    destruct ports as [|k ports]; [discriminate|]. cbn [combine] in G. inversion G as [|? c' ? rules' G1 G2]; subst. cbn [fst snd] in *.
    destruct i as [|i]; cbn [nth_error] in *; [injection A as <-; injection B as <-; eauto|]. eapply IH; eauto.
Qed.
(** the first match of the sorted rules *)
Lemma first_match_in rules p c : first_match rules p (Some c) -> In c rules /\ rule_accepts c p.
Proof. intros H. remember (Some c) as o. induction H as [| |r rs p o A H IH]; [discriminate|injection Heqo as ->; split; [now left|auto]|]. destruct (IH Heqo). split; [now right|auto]. Qed.
Lemma first_match_highest rules p c : StronglySorted key_le rules -> first_match rules p (Some c) -> forall d, In d rules -> rule_accepts d p -> key_le c d \/ c = d.
Proof.
  intros S H. remember (Some c) as o. induction H as [|r rs p A|r rs p o A H IH]; [discriminate| |]; inversion S as [|? ? S1 S2]; subst.
  - injection Heqo as ->. intros d [<-|D] _; [auto|]. left. rewrite Forall_forall in S2. auto.
  - intros d [<-|D] B; [contradiction|]. apply IH; auto.
Qed.
Lemma first_match_none_iff rules p : first_match rules p None -> forall d, In d rules -> ~ rule_accepts d p.
Proof. intros H. remember None as o. induction H as [| |r rs p o A H IH]; [intros d []|discriminate|]. intros d [<-|D]; [auto|apply IH; auto]. Qed.
Lemma fib_lpm rs ports rules : List.length rules = List.length rs ->
  (forall i r c, nth_error rs i = Some r -> nth_error rules i = Some c -> exists k, nth_error ports i = Some k /\ fib_rule r k c) ->
  forall p n, destination p n ->
  (forall c, first_match (sort_ruleset rules) p (Some c) -> exists i r k, nth_error rs i = Some r /\ nth_error ports i = Some k /\ nth_error rules i = Some c /\
     fib_rule r k c /\ covers r n /\ forall r', In r' rs -> covers r' n -> ro_len r' <= ro_len r) /\
  (first_match (sort_ruleset rules) p None -> forall r, In r rs -> ~ covers r n).
Proof.
  intros L H p n D.
  assert (BACK : forall r, In r rs -> exists c k, In c rules /\ fib_rule r k c).
  { intros r J. apply In_nth_error in J as [i I]. destruct (nth_error rules i) as [c|] eqn:E.
    - destruct (H i r c I E) as [k [_ K]]. exists c, k. split; [eapply nth_error_In; eauto|auto].
    - apply nth_error_None in E. assert (i < List.length rs)%nat by (apply nth_error_Some; congruence). lia. }
  split.
  - intros c FM. pose proof (first_match_highest _ _ _ (sort_sorted rules) FM) as HI. apply first_match_in in FM as [J A].
    apply (Permutation_in _ (sort_perm rules)) in J. apply In_nth_error in J as [i I]. destruct (nth_error rs i) as [r|] eqn:E.
    2:{ apply nth_error_None in E. assert (i < List.length rules)%nat by (apply nth_error_Some; congruence). lia. }
    destruct (H i r c E I) as [k [K FR]]. exists i, r, k. do 4 (split; [assumption|]). split; [apply (proj2 (proj2 (proj2 (proj2 (proj2 FR)))) p n D), A|].
    intros r' J C. destruct (BACK r' J) as [c' [k' [J' FR']]]. assert (A' : rule_accepts c' p) by (apply (proj2 (proj2 (proj2 (proj2 (proj2 FR')))) p n D), C).
    destruct (HI c' (Permutation_in _ (Permutation_sym (sort_perm rules)) J') A') as [Q|Q].
    + unfold key_le in Q. destruct FR as [T1 [T2 _]], FR' as [T1' [T2' _]]. lia.
    + subst c'. destruct FR as [T1 [T2 _]], FR' as [T1' [T2' _]]. lia.
  - intros FM r J C. destruct (BACK r J) as [c [k [J' FR]]]. apply (first_match_none_iff _ _ FM c); [apply (Permutation_in _ (Permutation_sym (sort_perm rules)) J')|].
    apply (proj2 (proj2 (proj2 (proj2 (proj2 FR)))) p n D), C.
Qed.
