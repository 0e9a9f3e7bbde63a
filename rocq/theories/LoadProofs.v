(** Proofs about loading rulesets of any format (C78). *)
From Coq Require Import Lia ZifyBool ZifyNat Permutation.
From Verif Require Import SpecLoad FormatProofs MatchProofs MiscProofs OvsFlows OvsWrite OvsGroups.
Import Text.
Local Open Scope string_scope.
Local Open Scope list_scope.
Local Open Scope Z_scope.

Lemma mentions_contains p s : mentions p s <-> contains p s = true.
Proof. symmetry. apply contains_spec. Qed.
Lemma suggests_in name l : suggests name l <-> In l (hinted name).
Proof.
  unfold hinted. rewrite !in_app_iff.
  assert (Q : forall (b : bool) x, In l (if b then [x] else []) <-> b = true /\ x = l) by (intros [|] x; cbn; intuition discriminate).
  rewrite !Q, !orb_true_iff. unfold suggests. rewrite <- !mentions_contains. unfold mentions. destruct l; intuition discriminate.
Qed.
Lemma dec_suggests name l : suggests name l \/ ~ suggests name l.
Proof.
  rewrite suggests_in. destruct (in_dec (fun a b : loader => ltac:(decide equality) : {a = b} + {a <> b}) l (hinted name)); auto.
Qed.
Lemma tried name rest l : remaining name rest -> In l (load_order name rest).
Proof.
  intros [_ R]. unfold load_order. rewrite !in_app_iff, <- suggests_in, R. destruct (dec_suggests name l) as [H|H]; [auto|].
  destruct l; auto; try (right; left; split; [discriminate|exact H]). right. right. now left.
Qed.

(** ** The first loader that reads the file *)
Section Loading.
Context (json pickle : st (list rule)) (file : text).
Lemma first_ok l : forall before after r r' x, Forall (fun k => raises (load json pickle file k)) before -> load json pickle file l r = (r', Ok x) ->
  load_first json pickle file (before ++ l :: after) r = (r', Ok x).
Proof.
  induction before as [|k before IH]; intros after r r' x F H; cbn [app load_first]; [now rewrite H|].
  inversion F as [|? ? K F']; subst. destruct (K r) as (e & E). rewrite E. now apply IH.
Qed.
(** every loader but [l] raises *)
Lemma only_ok name rest l r r' x : remaining name rest -> (forall k, k <> l -> raises (load json pickle file k)) -> load json pickle file l r = (r', Ok x) ->
  ruleset_from_auto json pickle name rest file r = (r', Ok x).
Proof.
  intros R O H. unfold ruleset_from_auto. assert (P := tried name rest l R). revert P. generalize (load_order name rest). intros ls. induction ls as [|k ls IH]; [intros []|].
  assert (D : {k = l} + {k <> l}) by decide equality. destruct D as [->|N].
  - intros _. apply (first_ok l []); auto.
  - intros [E|P]; [congruence|]. cbn [load_first]. destruct (O k N r) as (e & E). rewrite E. auto.
Qed.
End Loading.

(** ** What the routing table reader refuses *)
Lemma words_two w1 w2 t : w1 <> [] -> w2 <> [] -> Forall (fun c => ~ blank c) w1 -> Forall (fun c => ~ blank c) w2 ->
  words (w1 ++ T " " ++ w2 ++ T " " ++ t) = w1 :: w2 :: words t.
Proof.
  intros N1 N2 F1 F2. unfold words. rewrite MiscProofs.words_word by exact F1. cbn [app T list_ascii_of_string words_from]. change (is_space " ") with true. cbn iota.
  destruct w1; [congruence|]. f_equal. rewrite MiscProofs.words_word by exact F2. cbn [app words_from]. change (is_space " ") with true. cbn iota.
  destruct w2; [congruence|]. reflexivity.
Qed.
Lemma no_slash_raises s line w0 w1 ws r : words line = w0 :: w1 :: ws -> ~ In "/"%char w1 -> fib_line s line r = (r, Err IndexError).
Proof.
  intros W N. unfold fib_line, sbind at 1. rewrite W. unfold Fib.item at 1. cbn [nth_error rbind]. rewrite (split_word _ _ N). reflexivity.
Qed.
Lemma one_word_raises s line r : (List.length (words line) < 2)%nat -> fib_line s line r = (r, Err IndexError).
Proof.
  intros L. unfold fib_line, sbind at 1. destruct (words line) as [|a [|b ws]]; cbn in L; try lia; reflexivity.
Qed.
Lemma digits_fine base n : 0 <= n -> (base = 10 \/ base = 16) -> Forall (fun c => ~ blank c) (format_num base 0 n) /\ ~ In "/"%char (format_num base 0 n).
Proof.
  intros N B. assert (H : numeral base (show base n) n) by (apply show_numeral; lia).
  assert (E : format_num base 0 n = show base n) by (unfold format_num; rewrite (proj2 (Z.ltb_ge n 0)) by lia; reflexivity). rewrite E. split.
  - pose proof (numeral_chars _ _ _ H) as F. eapply Forall_impl; [|exact F]. intros c (d & K & _) Bl. apply table_facts in K as (_ & K & _). apply blank_space in Bl. congruence.
  - eapply numeral_not_in; [exact H|apply slash_not_digit].
Qed.
Lemma not_blank_T s : forallb (fun c => negb (is_space c)) (T s) = true -> Forall (fun c => ~ blank c) (T s).
Proof. rewrite forallb_forall, Forall_forall. intros H c J B. apply blank_space in B. specialize (H c J). rewrite B in H. discriminate. Qed.
Lemma flow_refused ru line s r : writable ru -> rule_to_ovs ru = Ok line -> fib_line s line r = (r, Err IndexError).
Proof.
  intros (items & xs & ws & _ & _ & _ & _ & _ & _ & (ck & Hc & Ck) & _ & Ta & _) H. unfold rule_to_ovs in H. rewrite Hc in H.
  destruct (match_to_ovs (rmatch ru)) as [m|e]; [|discriminate]. cbn [rbind] in H. destruct (instructions_to_ovs (inst ru)) as [i|e]; [|discriminate]. cbn [rbind] in H. injection H as <-.
  destruct (digits_fine 16 ck Ck (or_intror eq_refl)) as [B1 _]. destruct (digits_fine 10 (table ru) Ta (or_introl eq_refl)) as [B2 S2].
  eapply (no_slash_raises s _ (T "cookie=0x" ++ format_num 16 0 ck ++ T ",") (T "table=" ++ format_num 10 0 (table ru) ++ T ",")).
  - rewrite <- (words_two _ _ (T "priority=" ++ format_num 10 0 (priority ru) ++ T "," ++ m ++ T " actions=" ++ i)); [f_equal|discriminate|discriminate| |].
    + rewrite <- !app_assoc. reflexivity.
    + apply Forall_app. split; [now apply not_blank_T|]. apply Forall_app. split; [exact B1|now apply not_blank_T].
    + apply Forall_app. split; [now apply not_blank_T|]. apply Forall_app. split; [exact B2|now apply not_blank_T].
  - rewrite !in_app_iff. intros [J|[J|J]]; [|exact (S2 J)|]; cbn in J; intuition discriminate.
Qed.
Lemma fib_refused line ls r e : (forall s, fib_line s line r = (r, Err e)) -> ruleset_from_fib (line :: ls) r = (r, Err e).
Proof. intros H. unfold ruleset_from_fib, sbind. cbn [sfold]. unfold sbind. now rewrite H. Qed.

(** ** Lines *)
Lemma iter_lines lines file : Forall (fun l => ~ In newline l) lines -> lines_text lines file -> file_iter file = lines.
Proof.
  intros F [->|(l & x & -> & N & ->)]; unfold file_iter.
  - rewrite split_lines by exact F. rewrite last_last, removelast_last. reflexivity.
  - apply Forall_app in F as [F G]. inversion G as [|? ? Gx _]; subst.
    assert (E : split newline (List.concat (map (fun s => s ++ [newline]) l) ++ x) = l ++ [x]).
    { induction F as [|y l Hy _ IH]; [cbn [map List.concat app]; now apply split_word|]. cbn [map List.concat app]. rewrite <- !app_assoc. cbn [app]. rewrite split_app by exact Hy. now rewrite IH. }
    rewrite E, last_last. destruct x; congruence.
Qed.
Lemma split_part sep s : forall w, In w (split sep s) -> exists a b, s = a ++ w ++ b.
Proof.
  assert (G : match split sep s with [] => False | w :: l => (exists b, s = w ++ b) /\ forall v, In v l -> exists a b, s = a ++ v ++ b end).
  { induction s as [|x s IH]; cbn [split]; [split; [now exists []|intros v []]|]. destruct (Ascii.eqb x sep).
    - split; [now exists (x :: s)|]. intros v V. destruct (split sep s) as [|w l]; [destruct V|]. destruct IH as [(b & E) IH]. destruct V as [<-|V].
      + exists [x], b. cbn [app]. now f_equal.
      + destruct (IH v V) as (a & c & E2). exists (x :: a), c. cbn [app]. now f_equal.
    - destruct (split sep s) as [|w l]; [destruct IH|]. destruct IH as [(b & E) IH]. split; [exists b; cbn [app]; now f_equal|]. intros v V.
      destruct (IH v V) as (a & c & E2). exists (x :: a), c. cbn [app]. now f_equal. }
  intros w W. destruct (split sep s) as [|v l]; [destruct W|]. destruct G as [(b & E) G]. destruct W as [<-|W]; [now exists [], b|auto].
Qed.
Lemma plain_line p file l : ~ mentions p file -> In l (map str_strip (split newline file)) -> contains p l = false.
Proof.
  intros N J. apply in_map_iff in J as (w & <- & W). apply split_part in W as (a & b & E). destruct (contains p (str_strip w)) eqn:C; [|reflexivity]. exfalso. apply N.
  apply contains_spec in C as (c & d & C). destruct (strip_shape w) as (e & f & S & _). exists (a ++ e ++ c), (d ++ f ++ b). rewrite E, S, C. now rewrite <- !app_assoc.
Qed.
Lemma filter_none {A} (f : A -> bool) l : (forall x, In x l -> f x = false) -> filter f l = [].
Proof. induction l as [|x l IH]; intros H; [reflexivity|]. cbn [filter]. rewrite (H x) by now left. apply IH. intros y Y. apply H. now right. Qed.
Lemma plain_ovs r file : plain file -> ruleset_from_ovs r file = Ok (r, []).
Proof.
  intros [A G]. unfold ruleset_from_ovs. rewrite filter_none by (intros x X; exact (plain_line _ _ _ G X)). cbn [groups_from rbind].
  rewrite filter_none; [reflexivity|]. intros x X. unfold is_rule_line. rewrite (plain_line _ _ _ A X). apply andb_false_r.
Qed.

(** ** C78 *)
Lemma auto_ovs json pickle name rest rules : raises json -> raises pickle -> remaining name rest -> Forall writable rules ->
  exists file rules', ruleset_to_ovs rules = Ok file /\ ruleset_from_auto json pickle name rest file registry_init = (registry_init, Ok rules') /\
  Forall2 (fun a b => core_eqb a (rcore b) = true /\ made (rcore b) /\ path b = []) rules rules'.
Proof.
  intros RJ RP R F. destruct (ruleset_round rules F) as (file & cs & E1 & E2 & E3). exists file. destruct rules as [|ru rules].
  - inversion E3; subst. exists []. split; [exact E1|]. split; [|constructor]. vm_compute in E1. injection E1 as <-.
    assert (LO : forall k, raises (load json pickle [] k) \/ forall r, load json pickle [] k r = (r, Ok [])) by (intros []; auto).
    unfold ruleset_from_auto. assert (T1 := tried name rest LFib R). revert T1. generalize (load_order name rest). intros ls. induction ls as [|k ls IH]; [intros []|]. intros J. cbn [load_first].
    destruct (LO k) as [L|L]; [|now rewrite L]. destruct (L registry_init) as (e & Le). rewrite Le. apply IH. destruct J as [->|J]; [discriminate Le|exact J].
  - exists (map (fun c => mkRule c []) cs). split; [exact E1|]. split.
    + apply (only_ok json pickle file name rest LOvs registry_init); [exact R| |cbn [load]; now rewrite E2].
      inversion F as [|? ? W F']; subst. destruct (rule_round [] ru (NoDup_nil _) W) as (line & ru' & R1 & _ & _ & R4 & _).
      assert (X : exists t, file = line ++ newline :: t).
      { unfold ruleset_to_ovs in E1. cbn [map rall] in E1. rewrite R1 in E1. cbn [rbind] in E1. destruct (rall (map rule_to_ovs rules)) as [ls|e]; [|discriminate]. cbn [rbind] in E1. injection E1 as <-.
        eexists. cbn [map List.concat]. rewrite <- app_assoc. reflexivity. }
      destruct X as (t & ->). intros [] K; try congruence; [exact RJ|exact RP|]. intros r. exists IndexError. cbn [load].
      assert (I : exists ls, file_iter (line ++ newline :: t) = line :: ls).
      { unfold file_iter. rewrite split_app by exact R4. assert (N : split newline t <> []) by (destruct t as [|x t]; cbn [split]; [discriminate|]; destruct (Ascii.eqb x newline); [discriminate|]; destruct (split newline t); discriminate).
        destruct (split newline t) as [|y l]; [congruence|]. destruct (last (line :: y :: l) []); eexists; reflexivity. }
      destruct I as (ls & ->). apply fib_refused. intros s. exact (flow_refused ru line s r W R1).
    + clear - E3. induction E3 as [|a b l l' [H1 H2] E3 IH]; constructor; auto.
Qed.
Lemma auto_fib json pickle name rest rs lines file reg : raises json -> raises pickle -> remaining name rest -> suggests name LFib \/ ~ suggests name LOvs ->
  reg_ok reg -> Forall2 route_line rs lines -> Forall (fun l => ~ In newline l) lines -> lines_text lines file ->
  exists rules, ruleset_from_fib lines reg = (reg, Ok rules) /\ ruleset_from_auto json pickle name rest file reg = (reg, Ok rules).
Proof.
  intros RJ RP R S G F N L. destruct (fib_ok reg rs lines G F) as (rules & ports & E & _). exists rules. split; [exact E|].
  assert (LF : load json pickle file LFib reg = (reg, Ok rules)) by (cbn [load]; rewrite (iter_lines lines file N L); exact E).
  assert (O : exists before after, load_order name rest = before ++ LFib :: after /\ ~ In LOvs before /\ ~ In LFib before).
  { unfold load_order. destruct (in_dec (fun a b : loader => ltac:(decide equality) : {a = b} + {a <> b}) LFib (hinted name)) as [I|I].
    - unfold hinted in I |- *. rewrite !in_app_iff in I. destruct (contains (T "fib") name); [|destruct (_ || _), (_ || _), (contains (T "ovs") name); cbn in I; intuition discriminate].
      destruct (contains (T "json") name || _), (contains (T "pickle") name || _), (contains (T "ovs") name); cbn [app].
      all: first [exists [LJson; LPickle]; eexists; split; [reflexivity|] | exists [LJson]; eexists; split; [reflexivity|] | exists [LPickle]; eexists; split; [reflexivity|] | exists []; eexists; split; [reflexivity|]].
      all: cbn; intuition discriminate.
    - assert (J : In LFib rest) by (apply R; rewrite suggests_in; split; [discriminate|exact I]). apply in_split in J as (a & b & J).
      destruct S as [S|S]; [apply suggests_in in S; tauto|]. rewrite suggests_in in S.
      exists (hinted name ++ a), (b ++ [LOvs]). rewrite J. split; [rewrite <- !app_assoc; reflexivity|]. destruct R as [ND R]. rewrite J in ND. split.
      + rewrite in_app_iff. intros [H|H]; [tauto|]. assert (V : In LOvs rest) by (rewrite J, in_app_iff; now left). apply R in V as [V _]. congruence.
      + rewrite in_app_iff. intros [H|H]; [tauto|]. apply NoDup_remove_2 in ND. apply ND. apply in_or_app. now left. }
  destruct O as (before & after & O & O1 & O2). unfold ruleset_from_auto. rewrite O. apply first_ok; [|exact LF].
  apply Forall_forall. intros [] K; try tauto.
Qed.
(** plain text never is an error *)
Lemma auto_plain json pickle name rest file r : raises json -> raises pickle -> raises (ruleset_from_fib (file_iter file)) -> remaining name rest -> plain file ->
  ruleset_from_auto json pickle name rest file r = (r, Ok []).
Proof.
  intros RJ RP RF R P. apply (only_ok json pickle file name rest LOvs); [exact R| |cbn [load]; rewrite plain_ovs by exact P; reflexivity].
  intros [] K; try congruence; assumption.
Qed.
(** a table whose file name mentions ovs *)
Lemma auto_hidden json pickle name rest file r : raises json -> raises pickle -> remaining name rest -> suggests name LOvs -> ~ suggests name LFib -> plain file ->
  ruleset_from_auto json pickle name rest file r = (r, Ok []).
Proof.
  intros RJ RP R S N P. unfold ruleset_from_auto, load_order. rewrite suggests_in in N. assert (H := proj1 (suggests_in name LOvs) S). apply in_split in H as (a & b & H).
  rewrite H, <- app_assoc. cbn [app]. assert (F : Forall (fun k => raises (load json pickle file k) \/ k = LOvs) a).
  { apply Forall_forall. intros [] K; [left; exact RJ|left; exact RP| |now right]. exfalso. apply N. rewrite H. apply in_or_app. now left. }
  clear - F P. induction F as [|k a [K| ->] _ IH]; cbn [app load_first].
  - cbn [load]. now rewrite plain_ovs.
  - destruct (K r) as (e & E). now rewrite E.
  - cbn [load]. now rewrite plain_ovs.
Qed.
(** files of flows and groups *)
Lemma spaced_not_nil w ws line : spaced (w :: ws) line -> line <> [].
Proof. intros H E. inversion H; subst; destruct w; try congruence; destruct s; discriminate. Qed.
Lemma auto_dump json pickle name rest r x lines gs fs g r' l : raises json -> raises pickle -> remaining name rest -> no_route x ->
  file_lines (x :: lines) gs fs -> groups_text [] gs g -> flows_text r g fs r' l ->
  ruleset_from_auto json pickle name rest (file_text (x :: lines)) r = (r', Ok (map (fun c => mkRule c []) l)).
Proof.
  intros RJ RP R (NL & w & ws & Sp & W) FL G F. apply (only_ok json pickle _ name rest LOvs); [exact R| |].
  2: { cbn [load]. erewrite file_read; eauto. discriminate. }
  intros [] K; try congruence; [exact RJ|exact RP|]. intros q. exists IndexError. cbn [load].
  assert (I : exists ls, file_iter (file_text (x :: lines)) = x :: ls).
  { unfold file_text. destruct lines as [|y lines]; cbn [separated].
    - rewrite app_nil_r. unfold file_iter. rewrite (split_word _ _ NL). cbn [last]. pose proof (spaced_not_nil _ _ _ Sp) as N. destruct x; [congruence|]. now eexists.
    - unfold file_iter. rewrite split_app by exact NL. set (t := separated newline (y :: lines)). assert (N : split newline t <> []).
      { destruct t as [|z t]; cbn [split]; [discriminate|]; destruct (Ascii.eqb z newline); [discriminate|]; destruct (split newline t); discriminate. }
      change (y ++ match lines with [] => [] | _ :: _ => newline :: separated newline lines end) with t. destruct (split newline t) as [|z l']; [congruence|]. destruct (last (x :: z :: l') []); eexists; reflexivity. }
  destruct I as (ls & ->). apply fib_refused. intros s. destruct ws as [|w1 ws].
  - apply one_word_raises. rewrite (words_spaced _ _ Sp). cbn. lia.
  - eapply no_slash_raises; [exact (words_spaced _ _ Sp)|exact W].
Qed.
