(** Theorems for C93: routing tables through check_equivalence. *)
From Coq Require Import Permutation Sorted Lia.
From Coq Require Import ZifyBool ZifyNat.
From Verif Require Import Tool SpecTool SpecFibTool ToolProofs SpecMisc MiscProofs Fib Load SpecLoad FibTool MatchProofs SingleTableProofs PropMerge PropTool PropToolTotal PropLoad PropMisc.
Local Open Scope string_scope.
Local Open Scope list_scope.
Local Open Scope Z_scope.

(** ** C93 *)
(** the option --fib with these names and nothing else *)
Definition fib_options (names : list string) (dc dif : bool) : options := mkOptions [] (fun f => if String.eqb f "fib" then names else []) dc dif.
(** The files are read by convert_ruleset.load_ruleset. *)
Definition read_file (json pickle : string -> st (list rule)) (contents : string -> text) (f fmt : string) : st (list rule) :=
  load_ruleset (json f) (pickle f) (T f) [] (contents f) fmt.
Lemma fib_jobs names dc dif : jobs (fib_options names dc dif) = map (fun f => (f, "fib")) names.
Proof. unfold jobs, fib_options, INPUT_FORMATS. cbn [op_rulesets op_format map flat_map String.eqb Ascii.eqb Bool.eqb app]. apply app_nil_r. Qed.

(** check_equivalence on two or more files with routing tables that are not empty always prints
    lines, and puts two files on one line exactly when both tables give every address the same number, where
    the number of an address is that of the peer of its longest prefix (the first of equal ones), counted
    by first appearance in the file, or both have no route for it. *)
Theorem C93_routing_tables : forall SHIFT json pickle contents lns tables names dc dif reg, 0 < SHIFT -> SHIFT mod 2 = 0 -> reg_ok reg ->
  (forall f, In f names -> Forall2 route_line (tables f) (lns f) /\ tables f <> [] /\ Forall (fun l => ~ In newline l) (lns f) /\ lines_text (lns f) (contents f)) ->
  (exists a b, In a names /\ In b names /\ a <> b) ->
  exists reg' lines ds, check_equivalence SHIFT (read_file json pickle contents) (fib_options names dc dif) reg = (reg', Ok (Lines lines ds)) /\
  forall a b, In a names -> In b names ->
  (same_line lines a b <-> forall n, 0 <= n < 2 ^ 32 -> forall k, hop_number (tables a) n k <-> hop_number (tables b) n k).
Proof.
  intros SHIFT json pickle contents lns tables names dc dif reg Hs He HR HF (a0 & b0 & Ia0 & Ib0 & NE).
  set (ld := read_file json pickle contents). set (o := fib_options names dc dif).
  destruct (load_fibs ld lns reg names) with (d := @nil (string * list rule)) as (rulesets & L & LR).
  { intros f Hf. destruct (HF f Hf) as (H1 & H2 & H3 & H4). destruct (C78_named_fib (json f) (pickle f) (T f) [] (tables f) (lns f) (contents f) reg HR H1 H3 H4) as (rules & X & Y). eauto. }
  { constructor. } { intros n A []. }
  assert (LA : load_all ld o reg = (reg, Ok rulesets)) by (unfold load_all; subst o; now rewrite fib_jobs).
  destruct (load_names _ _ _ _ _ LA) as [ND NM].
  assert (NM' : forall n, In n (map fst rulesets) <-> In n names).
  { intros n. rewrite NM. subst o. rewrite fib_jobs, map_map. cbn [fst]. now rewrite map_id. }
  assert (TB : forall n A, In (n, A) rulesets -> table_of reg (tables n) A).
  { intros n A H. assert (Hn : In n names) by (apply NM'; apply (in_map fst) in H; exact H). destruct (HF n Hn) as (H1 & H2 & _). exact (fib_table reg (tables n) (lns n) A HR H1 H2 (LR n A H)). }
  destruct (C92_always_answers SHIFT ld o reg reg rulesets Hs He LA HR) as (reg' & out & E & Q).
  { intros n A H. assert (X := TB n A H). split; [exact (table_good _ _ _ X)|]. split; [exact (table_ordinary _ _ _ X)|]. split; [exact (table_start _ _ _ X)|].
    split; [intros r Hr; exact (table_prio _ _ _ _ X Hr)|]. split; [intros _; exact (table_total_tables _ _ _ X)|intros _ r Hr; exact (table_path _ _ _ _ X Hr)]. }
  assert (TWO : exists x y rest, rulesets = x :: y :: rest).
  { apply NM' in Ia0, Ib0. destruct rulesets as [|x [|y rest]]; [destruct Ia0| |eauto]. cbn [map In] in Ia0, Ib0. exfalso. apply NE. intuition congruence. }
  destruct TWO as (x & y & rest & ->). destruct Q as (lines & ds & -> & _). exists reg', lines, ds. split; [exact E|].
  intros a b Ia Ib. apply NM' in Ia, Ib. apply in_map_iff in Ia as ([a' A] & Ea & Ia). apply in_map_iff in Ib as ([b' B] & Eb & Ib). cbn [fst] in Ea, Eb. subst a' b'.
  destruct (C88_same_line_iff SHIFT ld o reg reg _ reg' lines ds Hs He LA HR (fun n A H => table_good _ _ _ (TB n A H)) E a A b B Ia Ib) as (ra & ra' & SA & rb & rb' & SB & A1 & A2 & A3 & B1 & B2 & B3 & Q).
  rewrite Q. exact (fib_same reg _ _ A B ra ra' SA rb rb' SB (TB a A Ia) (TB b B Ib) A1 A2 B1 B2 A3 B3).
Qed.
(** What was meant, the same peer for every address, if the peers are numbered alike. *)
Theorem C93_same_peers_partial : forall A B, (forall w k, numbered (map ro_peer A) w k <-> numbered (map ro_peer B) w k) ->
  ((forall n, 0 <= n < 2 ^ 32 -> forall k, hop_number A n k <-> hop_number B n k) <-> (forall n, 0 <= n < 2 ^ 32 -> forall w, next_hop A n w <-> next_hop B n w)).
Proof.
  assert (NT : forall R n r, best_route R n r -> exists k, numbered (map ro_peer R) (ro_peer r) k).
  { intros R n r (l1 & l2 & -> & _). assert (I : In (ro_peer r) (map ro_peer (l1 ++ r :: l2))) by (apply in_map, in_app_iff; right; now left).
    revert I. generalize (map ro_peer (l1 ++ r :: l2)). generalize (ro_peer r). clear. intros w l. assert (G : In w l -> exists m1 m2, l = m1 ++ w :: m2 /\ ~ In w m1).
    { induction l as [|x l IH]; intros H; [destruct H|]. destruct (list_eq_dec ascii_dec x w) as [->|N]; [exists [], l; auto|]. destruct H as [H|H]; [contradiction|].
      destruct (IH H) as (m1 & m2 & -> & M). exists (x :: m1), m2. split; [reflexivity|]. intros [X|X]; auto. }
    intros H. destruct (G H) as (m1 & m2 & -> & M). eexists. exists m1, m2. auto. }
  assert (G : forall A B, (forall w k, numbered (map ro_peer A) w k <-> numbered (map ro_peer B) w k) -> forall n,
    ((forall k, hop_number A n k -> hop_number B n k) <-> (forall w, next_hop A n w -> next_hop B n w))).
  { intros A B H n. split; intros Q.
    - intros [w|] Hw; [|exact (Q None Hw)]. destruct Hw as (r & Br & <-). destruct (NT A n r Br) as (k & K). destruct (Q (Some k)) as (r' & Br' & K'); [exists r; auto|].
      exists r'. split; [exact Br'|]. apply H in K. exact (numbered_inj _ _ _ _ K' K).
    - intros [k|] Hk; [|exact (Q None Hk)]. destruct Hk as (r & Br & K). destruct (Q (Some (ro_peer r))) as (r' & Br' & E); [exists r; auto|].
      exists r'. split; [exact Br'|]. rewrite E. now apply H. }
  intros A B H. assert (GA := G A B H). assert (GB := G B A (fun w k => iff_sym (H w k))). split; intros Q n N x; specialize (Q n N).
  - split; [apply GA; intros k; apply Q|apply GB; intros k; apply Q].
  - split; [apply GA; intros k; apply Q|apply GB; intros k; apply Q].
Qed.

(** ** Examples and refuted claims *)
Definition peer1 : text := T "10.9.9.1".
Definition peer2 : text := T "10.9.9.2".
Definition all_by (w : text) : route := Route [0; 0; 0; 0] 0 w.
Definition ten_by (w : text) : route := Route [10; 0; 0; 0] 8 w.
(** a and b hold the same routes in two orders; c holds those of a with the peers exchanged *)
Definition ex_table (f : string) : list route :=
  if String.eqb f "a" then [all_by peer1; ten_by peer2] else if String.eqb f "b" then [ten_by peer2; all_by peer1] else [all_by peer2; ten_by peer1].
Definition ex_lns (f : string) : list text := map (fun r => if ro_len r =? 0 then T "* 0.0.0.0/0 " ++ ro_peer r else T "* 10.0.0.0/8 " ++ ro_peer r) (ex_table f).
Definition ex_contents (f : string) : text := List.concat (map (fun s => s ++ [newline]) (ex_lns f)).
Lemma all_line w : In w [peer1; peer2] -> route_line (all_by w) (T "* 0.0.0.0/0 " ++ w).
Proof.
  intros H. exists (T "*"), [T "0"; T "0"; T "0"; T "0"], (T "0"), [].
  split; [|split; [repeat (constructor; [apply num_0|]); constructor|split; [reflexivity|split; [repeat constructor; cbn; lia|split; [apply num_0|cbn; lia]]]]].
  apply (sp_word [] (T "*") " "%char _ (T "0.0.0.0/0 " ++ w)); [blanks|discriminate|blanks|blanks|].
  apply (sp_word [] (T "0.0.0.0/0") " "%char _ w); [blanks|discriminate|blanks|blanks|].
  destruct H as [<-|[<-|[]]]; [apply (sp_last [] peer1 [])|apply (sp_last [] peer2 [])]; solve [blanks|discriminate].
Qed.
Lemma ten_line w : In w [peer1; peer2] -> route_line (ten_by w) (T "* 10.0.0.0/8 " ++ w).
Proof.
  intros H. exists (T "*"), [T "10"; T "0"; T "0"; T "0"], (T "8"), [].
  split; [|split; [constructor; [apply num_10|repeat (constructor; [apply num_0|]); constructor]|split; [reflexivity|split; [repeat constructor; cbn; lia|split; [apply num_8|cbn; lia]]]]].
  apply (sp_word [] (T "*") " "%char _ (T "10.0.0.0/8 " ++ w)); [blanks|discriminate|blanks|blanks|].
  apply (sp_word [] (T "10.0.0.0/8") " "%char _ w); [blanks|discriminate|blanks|blanks|].
  destruct H as [<-|[<-|[]]]; [apply (sp_last [] peer1 [])|apply (sp_last [] peer2 [])]; solve [blanks|discriminate].
Qed.
Lemma ex_files f : In f ["a"; "b"; "c"] -> Forall2 route_line (ex_table f) (ex_lns f) /\ ex_table f <> [] /\ Forall (fun l => ~ In newline l) (ex_lns f) /\ lines_text (ex_lns f) (ex_contents f).
Proof.
  intros H. split; [|split; [|split; [|now left]]].
  - destruct H as [<-|[<-|[<-|[]]]]; (constructor; [|constructor; [|constructor]]); first [apply all_line|apply ten_line]; cbn; tauto.
  - destruct H as [<-|[<-|[<-|[]]]]; discriminate.
  - assert (X : forallb (fun l => negb (existsb (Ascii.eqb newline) l)) (ex_lns f) = true) by (destruct H as [<-|[<-|[<-|[]]]]; vm_compute; reflexivity).
    apply Forall_forall. intros l Hl I. rewrite forallb_forall in X. specialize (X l Hl). apply negb_true_iff in X. assert (Y : existsb (Ascii.eqb newline) l = true); [|congruence].
    apply existsb_exists. exists newline. split; [exact I|apply Ascii.eqb_refl].
Qed.
Lemma best_two x y n r : best_route [x; y] n r <-> (r = x /\ covers x n /\ (covers y n -> ro_len y <= ro_len x)) \/ (r = y /\ covers y n /\ (covers x n -> ro_len x < ro_len y)).
Proof.
  split.
  - intros ([|u [|v [|w l1]]] & l2 & E & C & H1 & H2); try discriminate E.
    + injection E as <- <-. left. split; [reflexivity|]. split; [exact C|]. apply H2. now left.
    + injection E as <- <- <-. right. split; [reflexivity|]. split; [exact C|]. apply H1. now left.
  - intros [(-> & C & H)|(-> & C & H)].
    + exists [], [y]. split; [reflexivity|]. split; [exact C|]. split; [intros z []|intros z [<-|[]]; exact H].
    + exists [x], []. split; [reflexivity|]. split; [exact C|]. split; [intros z [<-|[]]; exact H|intros z []].
Qed.
Lemma number_one w l : numbered (w :: l) w 1.
Proof. exists [], l. split; [reflexivity|]. split; [intros []|reflexivity]. Qed.
Lemma number_two v w l : v <> w -> numbered (v :: w :: l) w 2.
Proof. intros N. exists [v], l. split; [reflexivity|]. split; [intros [X|[]]; auto|reflexivity]. Qed.
Definition in_ten (n : Z) : Prop := n / 2 ^ 24 = 10.
Lemma ten_covers w n : covers (ten_by w) n <-> in_ten n.
Proof. unfold covers, in_ten. reflexivity. Qed.
Lemma all_covers w n : 0 <= n < 2 ^ 32 -> covers (all_by w) n.
Proof. intros N. unfold covers. cbn [ro_len ro_octets all_by]. rewrite Z.div_small by lia. reflexivity. Qed.
Lemma hop_all_ten v w n k : 0 <= n < 2 ^ 32 -> v <> w -> (hop_number [all_by v; ten_by w] n k <-> (k = Some 1 /\ ~ in_ten n) \/ (k = Some 2 /\ in_ten n)).
Proof.
  intros N NE. assert (C := all_covers v n N). destruct k as [k|]; cbn [hop_number].
  - split.
    + intros (r & B & K). apply best_two in B as [(-> & _ & H)|(-> & H & _)]; cbn [map ro_peer all_by ten_by] in K.
      * left. rewrite (numbered_fun _ _ _ _ K (number_one v _)). split; [reflexivity|]. intros X. specialize (H (proj2 (ten_covers w n) X)). cbn in H. lia.
      * right. rewrite (numbered_fun _ _ _ _ K (number_two v w _ NE)). split; [reflexivity|]. now apply (ten_covers w).
    + intros [([= ->] & X)|([= ->] & X)].
      * exists (all_by v). split; [|apply number_one]. apply best_two. left. split; [reflexivity|]. split; [exact C|]. intros Y. destruct X. now apply (ten_covers w).
      * exists (ten_by w). split; [|apply number_two; exact NE]. apply best_two. right. split; [reflexivity|]. split; [now apply ten_covers|]. intros _. cbn. lia.
  - split; [intros H; destruct (H (all_by v) (or_introl eq_refl) C)|intros [[X _]|[X _]]; discriminate X].
Qed.
Lemma hop_ten_all v w n k : 0 <= n < 2 ^ 32 -> v <> w -> (hop_number [ten_by w; all_by v] n k <-> (k = Some 2 /\ ~ in_ten n) \/ (k = Some 1 /\ in_ten n)).
Proof.
  intros N NE. assert (C := all_covers v n N). destruct k as [k|]; cbn [hop_number].
  - split.
    + intros (r & B & K). apply best_two in B as [(-> & H & _)|(-> & _ & H)]; cbn [map ro_peer all_by ten_by] in K.
      * right. rewrite (numbered_fun _ _ _ _ K (number_one w _)). split; [reflexivity|]. now apply (ten_covers w).
      * left. rewrite (numbered_fun _ _ _ _ K (number_two w v _ (not_eq_sym NE))). split; [reflexivity|]. intros X. specialize (H (proj2 (ten_covers w n) X)). cbn in H. lia.
    + intros [([= ->] & X)|([= ->] & X)].
      * exists (all_by v). split; [|apply number_two, not_eq_sym, NE]. apply best_two. right. split; [reflexivity|]. split; [exact C|]. intros Y. destruct X. now apply (ten_covers w).
      * exists (ten_by w). split; [|apply number_one]. apply best_two. left. split; [reflexivity|]. split; [now apply ten_covers|]. intros _. cbn. lia.
  - split; [intros H; destruct (H (all_by v) (or_intror (or_introl eq_refl)) C)|intros [[X _]|[X _]]; discriminate X].
Qed.
Lemma peers_differ : peer1 <> peer2. Proof. discriminate. Qed.
Definition ex_none (f : string) : st (list rule) := fun r => (r, Err ValueError).
(** Full claim: two files are on one line exactly when every address has the same next hop in both.
    False both ways: the same routes in another order are on different lines, and tables that send every
    address to different peers are on one line. *)
Theorem C93_next_hops_refuted : exists reg' lines ds, check_equivalence 30 (read_file ex_none ex_none ex_contents) (fib_options ["a"; "b"; "c"] false true) registry_init = (reg', Ok (Lines lines ds)) /\
  ((forall n, 0 <= n < 2 ^ 32 -> forall w, next_hop (ex_table "a") n w <-> next_hop (ex_table "b") n w) /\ ~ same_line lines "a" "b") /\
  (same_line lines "a" "c" /\ forall n, 0 <= n < 2 ^ 32 -> forall w, next_hop (ex_table "a") n w -> ~ next_hop (ex_table "c") n w).
Proof.
  destruct (C93_routing_tables 30 ex_none ex_none ex_contents ex_lns ex_table ["a"; "b"; "c"] false true registry_init ltac:(lia) eq_refl reg_init_ok ex_files) as (reg' & lines & ds & E & Q).
  { exists "a", "b". split; [cbn; tauto|]. split; [cbn; tauto|discriminate]. }
  exists reg', lines, ds. split; [exact E|]. split; split.
  - intros n N w. change (ex_table "a") with [all_by peer1; ten_by peer2]. change (ex_table "b") with [ten_by peer2; all_by peer1]. assert (C := all_covers peer1 n N). destruct w as [w|]; cbn [next_hop].
    + split; intros (r & B & P); exists r; (split; [|exact P]); apply best_two in B; apply best_two; cbn [ro_len all_by ten_by] in *.
      * destruct B as [(-> & _ & H)|(-> & H & _)]; [right; split; [reflexivity|]; split; [exact C|intros X; specialize (H X); lia]|left; split; [reflexivity|]; split; [exact H|lia]].
      * destruct B as [(-> & H & _)|(-> & _ & H)]; [right; split; [reflexivity|]; split; [exact H|lia]|left; split; [reflexivity|]; split; [exact C|intros X; specialize (H X); lia]].
    + split; intros H; exfalso; apply (H (all_by peer1)); auto; cbn; tauto.
  - rewrite (Q "a" "b") by (cbn; tauto). intros H. specialize (H 0 ltac:(lia) (Some 1)). change (ex_table "a") with [all_by peer1; ten_by peer2] in H. change (ex_table "b") with [ten_by peer2; all_by peer1] in H.
    rewrite hop_all_ten, hop_ten_all in H by (try lia; exact peers_differ). unfold in_ten in H. cbn in H. destruct (proj1 H) as [[X _]|[_ X]]; [left; split; [reflexivity|lia]|discriminate X|discriminate X].
  - rewrite (Q "a" "c") by (cbn; tauto). intros n N k. change (ex_table "a") with [all_by peer1; ten_by peer2]. change (ex_table "c") with [all_by peer2; ten_by peer1].
    rewrite !hop_all_ten by (auto; first [exact peers_differ|exact (not_eq_sym peers_differ)]). reflexivity.
  - intros n N w Ha Hc. change (ex_table "a") with [all_by peer1; ten_by peer2] in Ha. change (ex_table "c") with [all_by peer2; ten_by peer1] in Hc.
    destruct w as [w|]; [|exact (Ha (all_by peer1) (or_introl eq_refl) (all_covers peer1 n N))]. destruct Ha as (r & B & <-), Hc as (r' & B' & P).
    apply best_two in B. apply best_two in B'. rewrite !ten_covers in B. rewrite !ten_covers in B'. cbn [ro_len all_by ten_by] in *.
    destruct B as [(-> & _ & H)|(-> & H & _)], B' as [(-> & _ & H')|(-> & H' & _)]; cbn [ro_peer all_by ten_by] in P; first [exact (peers_differ (eq_sym P))|exact (peers_differ P)|idtac].
    + specialize (H H'). lia.
    + specialize (H' H). lia.
Qed.
(** The theorem's hypotheses are met by these files, with any options; a and b are told apart although their peers are not numbered alike. *)
Example C93_ex : (forall f, In f ["a"; "b"; "c"] -> Forall2 route_line (ex_table f) (ex_lns f) /\ ex_table f <> [] /\ Forall (fun l => ~ In newline l) (ex_lns f) /\ lines_text (ex_lns f) (ex_contents f)) /\
  S_ (ex_contents "a") = ("* 0.0.0.0/0 10.9.9.1" ++ String newline ("* 10.0.0.0/8 10.9.9.2" ++ String newline ""))%string /\
  hop_number (ex_table "a") 0x0a010203 (Some 2) /\ hop_number (ex_table "a") 0x0b000000 (Some 1).
Proof.
  split; [exact ex_files|]. split; [reflexivity|]. change (ex_table "a") with [all_by peer1; ten_by peer2].
  split; rewrite hop_all_ten by (try lia; exact peers_differ); [right|left]; (split; [reflexivity|unfold in_ten; cbn; lia]).
Qed.
(** Numbered alike: the same peers in the same order of first appearance, with other routes. *)
Example C93_ex_same_peers : forall w k, numbered (map ro_peer [all_by peer1; ten_by peer2]) w k <-> numbered (map ro_peer [all_by peer1; ten_by peer2; ten_by peer1]) w k.
Proof.
  assert (G : forall l w k, numbered (peer1 :: peer2 :: l) w k -> In w [peer1; peer2] -> (w = peer1 /\ k = 1) \/ (w = peer2 /\ k = 2)).
  { intros l w k K [<-|[<-|[]]]; [left|right]; (split; [reflexivity|]); [apply (numbered_fun _ _ _ _ K (number_one _ _))|apply (numbered_fun _ _ _ _ K (number_two _ _ _ peers_differ))]. }
  intros w k. cbn [map ro_peer all_by ten_by]. split; intros K.
  - assert (I : In w [peer1; peer2]) by (destruct K as (l1 & l2 & -> & _); apply in_app_iff; right; now left). apply G in K as [[-> ->]|[-> ->]]; [apply number_one|apply number_two, peers_differ|exact I].
  - assert (I : In w [peer1; peer2]). { assert (J : In w [peer1; peer2; peer1]) by (destruct K as (l1 & l2 & -> & _); apply in_app_iff; right; now left). cbn [In] in *. tauto. }
    apply G in K as [[-> ->]|[-> ->]]; [apply number_one|apply number_two, peers_differ|exact I].
Qed.

Print Assumptions C93_routing_tables.
Print Assumptions C93_same_peers_partial.
Print Assumptions C93_next_hops_refuted.
