(** The groups and files of SpecOvs.v are read as intended. *)
From Coq Require Import Lia ZifyBool ZifyNat.
From Verif Require Import SpecOvs FormatProofs RyuProofs OvsRegex OvsValues OvsActions OvsPieces OvsFlows OvsWrite.
Import Text.
Local Open Scope string_scope.
Local Open Scope list_scope.
Local Open Scope Z_scope.

(** ** re.split *)
(** no match starts inside [u] *)
Lemma split_skip r s u : (forall a b, u = a ++ b -> b <> [] -> re_match r (b ++ s) = None) -> forall fuel cur, (List.length (u ++ s) < fuel)%nat ->
  exists fuel', (List.length s < fuel')%nat /\ re_split_from fuel r cur (u ++ s) = re_split_from fuel' r (cur ++ u) s.
Proof.
  induction u as [|x u IH]; intros N fuel cur L; [exists fuel; rewrite app_nil_r; auto|]. destruct fuel as [|fuel]; [lia|].
  cbn [app List.length] in L. destruct (IH) with (fuel := fuel) (cur := cur ++ [x]) as (f' & L' & E).
  - intros a b -> H. apply (N (x :: a) b eq_refl H).
  - lia.
  - exists f'. split; [exact L'|]. cbn [re_split_from]. rewrite (N [] (x :: u) eq_refl) by discriminate. cbn [app]. rewrite E. now rewrite <- app_assoc.
Qed.
Lemma split_stop r u : (forall a b, u = a ++ b -> re_match r b = None) -> forall fuel cur, (List.length u < fuel)%nat -> re_split_from fuel r cur u = [cur ++ u].
Proof.
  intros N fuel cur L. destruct (split_skip r [] u) with (fuel := fuel) (cur := cur) as (f' & L' & E).
  - intros a b H _. rewrite app_nil_r. eauto.
  - now rewrite app_nil_r.
  - rewrite app_nil_r in E. rewrite E. destruct f' as [|f']; [cbn in L'; lia|]. cbn [re_split_from]. rewrite (N u []); [reflexivity|]. now rewrite app_nil_r.
Qed.
(** *** at separators *)
Lemma all_drop f s : exists a b, s = a ++ b /\ all f a /\ stop f b.
Proof.
  induction s as [|x s (a & b & -> & A & B)]; [exists [], []; repeat split; constructor|]. destruct (f x) eqn:E.
  - exists (x :: a), b. repeat split; auto. now constructor.
  - exists [], (x :: a ++ b). repeat split; [constructor|exact E].
Qed.
Lemma plus_at f a b : a <> [] -> all f a -> stop f b -> re_match (Plus f) (a ++ b) = Some (b, []).
Proof.
  intros N A B. destruct a as [|x a]; [congruence|]. apply Forall_cons_iff in A as [X A]. unfold re_match.
  apply (eats_plus f x a X A b [] _ _ B). reflexivity.
Qed.
Lemma plus_miss f b : stop f b -> re_match (Plus f) b = None.
Proof. intros B. destruct b as [|x b]; [reflexivity|]. unfold re_match, Plus. cbn [run]. cbn [stop] in B. now rewrite B. Qed.
(** *** at "bucket=" *)
Lemma word_fails w : forall s c k, is_prefix w s = false -> run (Word w) s c k = None.
Proof.
  induction w as [|x w IH]; intros s c k H; [discriminate H|]. destruct s as [|y s]; [reflexivity|]. cbn [Word run]. cbn [is_prefix] in H.
  destruct (Ascii.eqb x y) eqn:E; [|reflexivity]. apply IH. exact H.
Qed.
Lemma bucket_at a v : all sep_char a -> stop sep_char v -> re_match bucket_re (a ++ T "bucket=" ++ v) = Some (v, []).
Proof.
  intros A V. unfold re_match, bucket_re.
  assert (E := eats_seq _ _ a (T "bucket=" ++ []) [] ([] ++ []) _ _ (eats_star sep_char a A) (eats_seq _ _ (T "bucket=") [] [] [] _ _ (eats_word (T "bucket=")) (eats_star sep_char [] (Forall_nil _)))).
  rewrite app_nil_r in E. specialize (E v [] (fun s' c => Some (s', c)) (v, [])). rewrite <- app_assoc in E. apply E; [|reflexivity]. cbn [app]. split; [split; [exact V|exact I]|reflexivity].
Qed.
Lemma bucket_miss a b : all sep_char a -> stop sep_char b -> is_prefix (T "bucket=") b = false -> re_match bucket_re (a ++ b) = None.
Proof.
  intros A B P. unfold re_match, bucket_re. set (k := fun s' c => Some (s', c)).
  change (run (Star sep_char ;; W "bucket=" ;; Star sep_char) (a ++ b) [] k) with
    ((fix go s := match s with
                  | [] => run (W "bucket=" ;; Star sep_char) [] [] k
                  | x :: t => if sep_char x then match go t with Some r => Some r | None => run (W "bucket=" ;; Star sep_char) s [] k end
                              else run (W "bucket=" ;; Star sep_char) s [] k
                  end) (a ++ b)).
  rewrite (star_max sep_char a b (fun s => run (W "bucket=" ;; Star sep_char) s [] k) A B).
  - cbn [run]. now apply word_fails.
  - intros x t X. cbn [run]. apply word_fails. cbn [T list_ascii_of_string is_prefix]. destruct (Ascii.eqb "b" x) eqn:E; [|reflexivity]. apply Ascii.eqb_eq in E as <-. discriminate X.
Qed.
Lemma visible_unsep c : visible c -> sep_char c = false /\ re_space c = false.
Proof.
  intros [R N]. assert (S : forallb (fun c => negb ((33 <=? nat_of_ascii c)%nat && (nat_of_ascii c <=? 126)%nat) || Ascii.eqb c "," || (negb (sep_char c) && negb (re_space c))) all_ascii = true)
    by (vm_compute; reflexivity).
  rewrite forallb_forall in S. specialize (S c (in_all_ascii c)). apply Ascii.eqb_neq in N. rewrite N in S.
  rewrite (proj2 (Nat.leb_le 33 _)), (proj2 (Nat.leb_le _ 126)) in S by lia. cbn [andb negb orb] in S. apply andb_true_iff in S as [A B]. split; now apply negb_true_iff.
Qed.
Lemma end_unsep u : visible_end u -> forall a b, u = a ++ b -> b <> [] -> exists b0 c, b = b0 ++ [c] /\ sep_char c = false.
Proof.
  intros (t & c & -> & V) a b E N. destruct b as [|c' b] using rev_ind; [congruence|]. rewrite app_assoc in E. apply app_inj_tail in E as [_ <-].
  exists b, c. split; [reflexivity|]. now apply visible_unsep.
Qed.
Lemma prefix_around p b c t : ~ In c p -> is_prefix p (b ++ c :: t) = true -> is_prefix p b = true.
Proof.
  intros N H. apply is_prefix_spec in H as (z & E). apply is_prefix_spec. destruct (app_cases _ _ _ _ E) as [(l & -> & _)|(l & -> & E2)]; [now exists l|].
  destruct l as [|y l]; [exists []; now rewrite !app_nil_r|]. injection E2 as <- _. destruct N. apply in_or_app. right. now left.
Qed.
Lemma prefix_occurs p a b : is_prefix p b = true -> occurs p (a ++ b).
Proof. intros H. apply is_prefix_spec in H as (z & ->). now exists a, z. Qed.
Definition bucket_like (b : text) : Prop := stop sep_char b /\ visible_end b /\ ~ occurs (T "bucket=") b.
Lemma not_in_bucket c : separator c -> ~ In c (T "bucket=").
Proof. intros H J. destruct H as [<-|[<-|[<-|[]]]]; vm_compute in J; repeat (destruct J as [J|J]; [discriminate J|]); exact J. Qed.
Lemma split_tail u v : ~ occurs (T "bucket=") u -> forall a b, u = a ++ b -> (exists b0 c, b = b0 ++ [c] /\ sep_char c = false) -> 
  (v = [] \/ exists c t, v = c :: t /\ separator c) -> re_match bucket_re (b ++ v) = None.
Proof.
  intros O a b -> (b0 & c & -> & C) V. destruct (all_drop sep_char (b0 ++ [c])) as (x & y & E & X & Y).
  assert (Ny : y <> []). { intros ->. rewrite app_nil_r in E. rewrite <- E in X. apply all_app in X as [_ X]. apply Forall_inv in X. congruence. }
  rewrite E, <- app_assoc. apply bucket_miss; [exact X|destruct y; [congruence|exact Y]|].
  destruct (is_prefix _ _) eqn:P; [|reflexivity]. exfalso. apply O. rewrite E, app_assoc. apply prefix_occurs. destruct V as [->|(c' & t & -> & S')].
  - now rewrite app_nil_r in P.
  - apply prefix_around in P; [exact P|]. now apply not_in_bucket.
Qed.
Lemma buckets_split bts : Forall (fun sb => fst sb <> [] /\ Forall separator (fst sb)) bts -> Forall (fun sb => bucket_like (snd sb)) bts ->
  forall u cur fuel, visible_end u -> ~ occurs (T "bucket=") u ->
  (List.length (u ++ List.concat (map (fun sb : text * text => fst sb ++ T "bucket=" ++ snd sb) bts)) < fuel)%nat ->
  re_split_from fuel bucket_re cur (u ++ List.concat (map (fun sb => fst sb ++ T "bucket=" ++ snd sb) bts)) = (cur ++ u) :: map snd bts.
Proof.
  intros S1 S2. induction bts as [|[sp b] bts IH]; intros u cur fuel E O L.
  - cbn [map List.concat] in *. rewrite app_nil_r in *. apply split_stop; [|exact L]. intros a b Q. destruct b as [|x b]; [reflexivity|].
    rewrite <- (app_nil_r (x :: b)). apply (split_tail u [] O a (x :: b) Q); [|now left]. now apply (end_unsep u E a).
  - apply Forall_cons_iff in S1 as [[N S] S1]. apply Forall_cons_iff in S2 as [(B1 & B2 & B3) S2]. cbn [fst snd] in *. cbn [map List.concat fst snd] in *.
    set (rest := List.concat (map (fun sb : text * text => fst sb ++ T "bucket=" ++ snd sb) bts)) in *.
    rewrite <- !app_assoc in *. destruct (split_skip bucket_re (sp ++ T "bucket=" ++ b ++ rest) u) with (fuel := fuel) (cur := cur) as (f' & L' & Q).
    + intros a b' Q Nb. apply (split_tail u _ O a b' Q); [now apply (end_unsep u E a)|]. right. destruct sp as [|c sp]; [congruence|]. apply Forall_inv in S. now exists c, (sp ++ T "bucket=" ++ b ++ rest).
    + exact L.
    + rewrite Q. destruct f' as [|f']; [lia|]. cbn [re_split_from]. rewrite bucket_at.
      * f_equal. apply (IH S1 S2 b [] f' B2 B3). rewrite !app_length in L'. change (List.length (T "bucket=")) with 7%nat in L'. rewrite app_length. lia.
      * now apply separator_sep.
      * destruct B2 as (t & c & -> & V). destruct t as [|x t]; [cbn; now apply visible_unsep|exact B1].
Qed.

(** ** Groups *)
Lemma params_calm p : params_text p -> ends [] p /\ all plainc p.
Proof.
  assert (S : forallb (fun w => endsb [] [] (T w) && forallb plainc (T w)) bucket_params = true) by (vm_compute; reflexivity). rewrite forallb_forall in S.
  induction 1 as [|w s n t H P _ [E Q]]; [split; [now apply ends_none|constructor]|]. specialize (S w H). apply andb_true_iff in S as [S1 S2]. split.
  - apply ends_app; [now apply ends_lit|]. apply ends_app; [lit_ends|]. apply ends_app; [now apply (port_ends [] s n)|]. apply ends_app; [lit_ends|exact E].
  - apply all_app. split; [apply Forall_forall; now apply forallb_forall|]. apply all_app. split; [repeat constructor|]. apply all_app. split; [now apply (port_plain s n)|]. apply all_app. split; [repeat constructor|exact Q].
Qed.
Lemma ends_more L L' s : incl L L' -> ends L s -> ends L' s.
Proof. intros H E u v Q. destruct (E u v Q) as (u' & e & He & R). exists u', e. split; auto. Qed.
Definition line_ends : list string := ["rt"; "en"; "ns"].
Lemma bucket_ends g b l : bucket_text g b l -> ends line_ends b.
Proof.
  intros [p s l' P A _]. apply ends_app; [apply (ends_more []); [intros x []|now apply params_calm]|]. apply ends_app; [lit_ends|].
  apply (ends_more arg_ends); [intros x [<-|[<-|[]]]; cbn; auto|now apply (actions_ends g s l')].
Qed.
Lemma bucket_is_like g b l : bucket_text g b l -> bucket_like b.
Proof.
  intros H. split; [|split].
  - destruct H as [p s l P A V]. destruct P as [|w s' n t H P P']; [reflexivity|]. 
    assert (S : forallb (fun w => match T w with x :: _ => negb (sep_char x) | [] => false end) bucket_params = true) by (vm_compute; reflexivity). rewrite forallb_forall in S. specialize (S w H).
    destruct (T w) as [|x t']; [discriminate S|]. now apply negb_true_iff.
  - destruct H as [p s l P A (t & c & -> & V)]. exists (p ++ T "actions=" ++ t), c. split; [now rewrite <- !app_assoc|exact V].
  - change (T "bucket=") with (eq_sign "bucket"). eapply ends_silent; [exact (bucket_ends g b l H)|]. vm_compute. reflexivity.
Qed.
Lemma end_strip s : visible_end s -> stop re_space s -> str_strip s = s.
Proof.
  intros (t & c & E & V) S. destruct s as [|x s]; [reflexivity|]. apply (strip_keep x s t c); [exact S|now apply visible_unsep|exact E].
Qed.
Lemma stop_sep s : stop sep_char s -> stop re_space s.
Proof. destruct s as [|x s]; [auto|]. cbn [stop]. unfold sep_char. intros H. now apply orb_false_iff in H as [_ H]. Qed.
Lemma bucket_read g b l w : NoDup (map fst g) -> bucket_text g b l -> as_of l = Ok w -> parse_bucket g (str_strip b) = Ok (al_iter w).
Proof.
  intros ND H E. destruct (bucket_is_like g b l H) as (B1 & B2 & B3). rewrite end_strip; [|exact B2|now apply stop_sep]. destruct H as [p s l P A V].
  unfold parse_bucket. rewrite (proj2 (contains_spec _ _)) by (now exists p, s). rewrite split_on_ok.
  - rewrite (actions_read g as_append s l ND A). change (rfold as_append l al_empty) with (as_of l). rewrite E. reflexivity.
  - change (T "actions=") with (eq_sign "actions"). eapply ends_silent; [apply params_calm, P|reflexivity].
  - apply in_contains. change (T "actions=") with (eq_sign "actions"). eapply ends_silent; [exact (actions_ends g s l A)|]. vm_compute. reflexivity.
Qed.
Lemma head_split s n ty : number_text s n -> In ty group_types -> let h := T "group_id=" ++ s ++ T ",type=" ++ T ty in
  visible_end h /\ ~ occurs (T "bucket=") h /\ re_split (Plus sep_char) (str_strip h) = [T "group_id=" ++ s; T "type=" ++ T ty].
Proof.
  intros N H h.
  assert (S : forallb (fun ty => endsb [] [] (T ty) && forallb unsep (T ty) && match rev (T ty) with c :: _ => (33 <=? nat_of_ascii c)%nat && (nat_of_ascii c <=? 126)%nat && negb (Ascii.eqb c ",") | [] => false end) group_types = true)
    by (vm_compute; reflexivity).
  rewrite forallb_forall in S. specialize (S ty H). apply andb_true_iff in S as [S S3]. apply andb_true_iff in S as [S1 S2].
  assert (V : visible_end h).
  { destruct (rev (T ty)) as [|c t] eqn:E; [discriminate S3|]. apply (f_equal (@rev ascii)) in E. rewrite rev_involutive in E. cbn [rev] in E. unfold h. rewrite E.
    exists (T "group_id=" ++ s ++ T ",type=" ++ rev t), c. split; [now rewrite <- !app_assoc|]. apply andb_true_iff in S3 as [S3 S4]. apply andb_true_iff in S3 as [A B].
    apply Nat.leb_le in A, B. split; [lia|]. apply negb_true_iff in S4. now apply Ascii.eqb_neq in S4. }
  assert (E : ends ["id"; "pe"] h).
  { unfold h. apply ends_app; [lit_ends|]. apply ends_app; [now apply (number_ends _ s n)|]. apply ends_app; [lit_ends|]. apply (ends_more []); [intros x []|now apply ends_lit]. }
  split; [exact V|]. split; [change (T "bucket=") with (eq_sign "bucket"); eapply ends_silent; [exact E|reflexivity]|].
  rewrite end_strip; [|exact V|reflexivity]. unfold h, re_split.
  assert (Us : all unsep s) by (eapply sub_class; [|exact (number_dchars s n N)]; vm_compute; reflexivity).
  assert (U1 : all unsep (T "group_id=" ++ s)) by (apply all_app; split; [repeat constructor|exact Us]).
  assert (U2 : all unsep (T "type=" ++ T ty)) by (apply all_app; split; [repeat constructor|apply Forall_forall; now apply forallb_forall]).
  assert (K : forall u v, all unsep u -> forall a b, u = a ++ b -> b <> [] -> re_match (Plus sep_char) (b ++ v) = None).
  { intros u v U a b -> Nb. apply all_app in U as [_ U]. destruct b as [|x b]; [congruence|]. apply Forall_inv in U. apply plus_miss. cbn [app stop]. unfold unsep in U. now apply negb_true_iff. }
  change (T ",type=" ++ T ty) with (T "," ++ (T "type=" ++ T ty)). rewrite app_assoc.
  destruct (split_skip (Plus sep_char) (T "," ++ (T "type=" ++ T ty)) (T "group_id=" ++ s)) with (fuel := S (List.length ((T "group_id=" ++ s) ++ T "," ++ (T "type=" ++ T ty)))) (cur := @nil ascii) as (f' & L' & Q).
  - apply K, U1.
  - lia.
  - rewrite Q. destruct f' as [|f']; [lia|]. cbn [re_split_from]. rewrite plus_at; [|discriminate|repeat constructor|reflexivity]. cbn [app]. f_equal.
    apply (split_stop (Plus sep_char) (T "type=" ++ T ty)) with (cur := @nil ascii); [|rewrite app_length in L'; change (List.length (T ",")) with 1%nat in L'; lia]. intros a b Hb. destruct b as [|x b]; [reflexivity|]. rewrite <- (app_nil_r (x :: b)). apply (K _ [] U2 a); [exact Hb|discriminate].
Qed.

Lemma group_read g line n v : NoDup (map fst g) -> group_desc g line n v -> parse_group g line = Ok (Some n, v).
Proof.
  intros ND (s & ty & bts & acts & bs & E & -> & N & Ty & Nb & Sp & Bt & Ac). destruct (head_split s n ty N Ty) as (V & O & H).
  set (h := T "group_id=" ++ s ++ T ",type=" ++ T ty) in *.
  assert (E' : line = h ++ List.concat (map (fun sb => fst sb ++ T "bucket=" ++ snd sb) bts)) by (rewrite E; unfold h; now rewrite <- !app_assoc). clear E.
  assert (Like : Forall (fun sb : text * text => bucket_like (snd sb)) bts).
  { clear - Bt. remember (map snd bts) as l eqn:E. revert bts E. induction Bt as [|b a l acts B _ IH]; intros bts E; (destruct bts as [|[sp b'] bts]; try discriminate E); [constructor|].
    injection E as -> E. constructor; [now apply (bucket_is_like g b' a)|now apply IH]. }
  unfold parse_group. assert (C : contains (T "bucket=") line = true).
  { apply contains_spec. rewrite E'. destruct bts as [|[sp b] bts]; [congruence|]. cbn [map List.concat fst snd]. exists (h ++ sp). eexists. rewrite <- !app_assoc. reflexivity. }
  assert (P : re_split bucket_re line = h :: map snd bts) by (rewrite E'; unfold re_split; apply (buckets_split bts Sp Like h []); [exact V|exact O|lia]).
  rewrite C, P. cbv zeta. cbn [hd tl]. rewrite H. cbn [rfold].
  assert (Nq : ~ In "="%char s) by (now apply vchar_no_eq, dchar_vchar, (number_dchars s n)).
  assert (Nt : ~ In "="%char (T ty)).
  { assert (S : forallb (fun ty => negb (has_char "="%char (T ty))) group_types = true) by (vm_compute; reflexivity). rewrite forallb_forall in S. specialize (S ty Ty).
    intros J. apply a_char in J. rewrite J in S. discriminate S. }
  change (T "group_id=" ++ s) with (T "group_id" ++ "="%char :: s). change (T "type=" ++ T ty) with (T "type" ++ "="%char :: T ty).
  rewrite split_app by (vm_compute; intuition discriminate). rewrite split_word by exact Nq. rewrite S_T. change (String.eqb "group_id" "group_id") with true.
  rewrite (read_number s n N). cbn [rbind snd fst]. rewrite split_app by (vm_compute; intuition discriminate). rewrite split_word by exact Nt. rewrite S_T.
  change (String.eqb "type" "group_id") with false. change (String.eqb "type" "type") with true. cbn [rbind]. rewrite S_T.
  assert (R : rall (map (fun b => parse_bucket g (str_strip b)) (map snd bts)) = Ok bs).
  { clear - ND Bt Ac. revert bs Ac. induction Bt as [|b a l acts B _ IH]; intros bs Ac; inversion Ac as [|? ? ? ? (w & A & ->) Ac']; subst; [reflexivity|].
    cbn [map rall]. rewrite (bucket_read g b a w ND B A). cbn [rbind]. now rewrite (IH _ Ac'). }
  rewrite R. reflexivity.
Qed.
Lemma nodup_snoc {X} (l : list X) x : NoDup l -> ~ In x l -> NoDup (l ++ [x]).
Proof. intros N H. rewrite <- (rev_involutive (l ++ [x])), rev_app_distr. apply NoDup_rev. cbn [rev app]. constructor; [now rewrite <- in_rev|now apply NoDup_rev]. Qed.
Lemma groups_read g ls g' : groups_text g ls g' -> NoDup (map fst g) -> groups_from ls g = Ok g' /\ NoDup (map fst g').
Proof.
  induction 1 as [g|g line n v ls g' H N _ IH]; intros ND; [auto|]. cbn [groups_from]. rewrite (group_read g line n v ND H). cbn [rbind].
  assert (Ex : existsb (fun e : Z * aval => fst e =? n) g = false).
  { destruct (existsb _ _) eqn:E; [|reflexivity]. exfalso. apply existsb_exists in E as ([k u] & I1 & I2). cbn [fst] in I2. apply Z.eqb_eq in I2 as ->. apply N. apply in_map_iff. now exists (n, u). }
  rewrite Ex. apply IH. rewrite map_app. now apply nodup_snoc.
Qed.
Lemma flows_read r g ls r' l : flows_text r g ls r' l -> NoDup (map fst g) -> rules_from r g ls = Ok (r', l).
Proof.
  induction 1 as [r g|r g line r1 ru ls r2 l (its & ps & a & w & m & F & A & W & L & M & ->) _ IH]; intros ND; [reflexivity|]. cbn [rules_from].
  rewrite (rule_read r g line its ps a w ND F A W L), M. cbn [rbind]. rewrite (IH ND). reflexivity.
Qed.

(** ** Files *)
Lemma margin_space s : margin s -> all re_space s /\ all plainc s.
Proof. intros H. split; (eapply Forall_impl; [|exact H]); intros c [<-|[<-|[<-|[]]]]; reflexivity. Qed.
Lemma drop_space a s : all re_space a -> drop_re_space (a ++ s) = drop_re_space s.
Proof. induction 1 as [|x a X _ IH]; [reflexivity|]. cbn [app drop_re_space]. now rewrite X. Qed.
Lemma strip_margins a s b : margin a -> margin b -> stop re_space s -> visible_end s -> str_strip (a ++ s ++ b) = s.
Proof.
  intros A B S V. assert (St := end_strip s V S). unfold str_strip in *. rewrite drop_space by (now apply margin_space).
  destruct V as (t & c & -> & Vc). assert (X : drop_re_space ((t ++ [c]) ++ b) = (t ++ [c]) ++ b).
  { destruct t as [|x t]; cbn [app drop_re_space stop] in *; now rewrite S. }
  rewrite X, rev_app_distr, drop_space by (apply all_rev; now apply margin_space). rewrite rev_app_distr. cbn [rev app drop_re_space]. rewrite (proj2 (visible_unsep c Vc)). cbn [rev]. now rewrite rev_involutive.
Qed.
Lemma mentions_contains p s : ~ mentions p s -> contains p s = false.
Proof. exact (in_contains p s). Qed.
Lemma strip_other p s : ~ mentions p s -> ~ mentions p (str_strip s).
Proof. intros N (u & v & E). destruct (strip_shape s) as (a & b & Q & _ & _). apply N. exists (a ++ u), (v ++ b). rewrite Q, E. now rewrite <- !app_assoc. Qed.
Lemma concat_all f (l : list text) : Forall (all f) l -> all f (List.concat l).
Proof. induction 1 as [|x l X _ IH]; [constructor|]. cbn [List.concat]. now apply all_app. Qed.
Lemma separator_plain s : Forall separator s -> all plainc s.
Proof. intros H. eapply Forall_impl; [|exact H]. intros c [<-|[<-|[<-|[]]]]; reflexivity. Qed.
Lemma group_facts g line n v : group_desc g line n v -> stop re_space line /\ visible_end line /\ all plainc line /\ is_group_line line = true.
Proof.
  intros (s & ty & bts & acts & bs & -> & -> & N & Ty & Nb & Sp & Bt & Ac). repeat split.
  - destruct (exists_last Nb) as (bts' & [sp b] & ->). rewrite map_app, concat_app. cbn [map List.concat fst snd]. rewrite app_nil_r.
    rewrite map_app in Bt. apply Forall2_app_inv_l in Bt as (a1 & a2 & _ & Bt & _). inversion Bt as [|? y ? ? B _]; subst. destruct (bucket_is_like g _ _ B) as (_ & (t & c & E & Vc) & _).
    cbn [map snd] in E. rewrite E. eexists (T "group_id=" ++ s ++ T ",type=" ++ T ty ++ List.concat (map _ bts') ++ sp ++ T "bucket=" ++ t), c. split; [|exact Vc]. rewrite <- !app_assoc. reflexivity.
  - apply all_app. split; [repeat constructor|]. apply all_app. split; [now apply (number_plain s n)|]. apply all_app. split; [repeat constructor|]. apply all_app. split.
    + assert (S : forallb (fun ty => forallb plainc (T ty)) group_types = true) by (vm_compute; reflexivity). rewrite forallb_forall in S. apply Forall_forall, forallb_forall. now apply S.
    + apply concat_all. clear Nb Ac. remember (map snd bts) as l eqn:E. revert bts E Sp. induction Bt as [|b a l acts B _ IH]; intros bts E Sp; (destruct bts as [|[sp b'] bts]; try discriminate E); [constructor|].
      injection E as -> E. apply Forall_cons_iff in Sp as [[_ S1] Sp]. cbn [map fst snd] in *. constructor; [|now apply IH].
      apply all_app. split; [now apply separator_plain|]. apply all_app. split; [repeat constructor|]. destruct B as [p t l' P A _].
      apply all_app. split; [now apply params_calm|]. apply all_app. split; [repeat constructor|]. destruct A as (ls & L & _). eapply listed_plain; [|exact L]. intros w x Q. now apply (action_plain g w x).
Qed.
Lemma lower_newline c : lower c = newline -> c = newline.
Proof.
  intros E. assert (S : forallb (fun c => negb (Ascii.eqb (lower c) newline) || Ascii.eqb c newline) all_ascii = true) by (vm_compute; reflexivity).
  rewrite forallb_forall in S. specialize (S c (in_all_ascii c)). rewrite E, Ascii.eqb_refl in S. now apply Ascii.eqb_eq.
Qed.
Lemma lower_fix_newline : lower newline = newline. Proof. reflexivity. Qed.
Lemma flow_facts g line its ps : flow_text g line its ps -> all plainc line /\ is_group_line line = false /\ is_rule_line line = true.
Proof.
  intros (before & after & -> & It & Ps).
  assert (G : is_group_line (before ++ T "actions=" ++ after) = false).
  { unfold is_group_line. apply in_contains. change (T "group_id=") with (eq_sign "group_id"). intros (u & v & E).
    (* it ends before, across or after "actions=" *)
    replace (before ++ T "actions=" ++ after) with ((before ++ T "actions") ++ "="%char :: after) in E by (now rewrite <- app_assoc).
    replace (u ++ eq_sign "group_id" ++ v) with ((u ++ T "group_id") ++ "="%char :: v) in E by (unfold eq_sign; now rewrite <- !app_assoc).
    destruct (app_cases _ _ _ _ E) as [(l & E1 & E2)|(l & E1 & E2)].
    - destruct l as [|y l].
      + rewrite app_nil_r in E1. apply (f_equal (fun s => is_prefix (T "di") (rev s))) in E1. rewrite !rev_app_distr in E1. discriminate E1.
      + injection E2 as <- E2. destruct (app_cases _ _ _ _ E1) as [(m & F1 & F2)|(m & F1 & F2)].
        * destruct m as [|z m]; [cbn [app] in F2; vm_compute in F2; discriminate F2|].
          injection F2 as <- F2. apply (items_silent "group_id" before its unlike_group It). exists u, m. rewrite F1. unfold eq_sign. now rewrite <- !app_assoc.
        * assert (J : In "="%char (T "actions")) by (rewrite F2; apply in_or_app; right; now left). vm_compute in J. repeat (destruct J as [J|J]; [discriminate J|]). exact J.
    - destruct l as [|y l].
      + rewrite app_nil_r in E1. apply (f_equal (fun s => is_prefix (T "di") (rev s))) in E1. rewrite !rev_app_distr in E1. discriminate E1.
      + injection E2 as <- E2. 
        assert (Q := pieces_ends g _ ps Ps). specialize (Q (map lower l) (map lower v)). rewrite E2, map_app in Q. destruct (Q eq_refl) as (u' & e & He & R).
        assert (X : is_prefix (rev (T e)) (rev (map lower l)) = true) by (rewrite R, rev_app_distr; apply is_prefix_spec; eauto).
        apply (f_equal (fun s => rev (map lower s))) in E1. rewrite !map_app, !rev_app_distr in E1. cbn [map] in E1.
        assert (Y : exists z, rev (map lower l) ++ z = rev (map lower (T "group_id")) ++ rev (map lower u)).
        { rewrite E1. cbn [rev]. rewrite <- !app_assoc. eauto. }
        destruct Y as (z & Y). apply is_prefix_spec in X as (x & X). rewrite X in Y. rewrite <- app_assoc in Y. destruct He as [<-|[<-|[]]]; vm_compute in Y; discriminate Y. }
  split; [|split; [exact G|unfold is_rule_line; rewrite G; cbn [negb andb]; apply contains_spec; now exists before, after]].
  apply all_app. split; [apply plain_newline; now apply (items_no_newline before its)|]. apply all_app. split; [repeat constructor|]. apply plain_newline. intros J.
  assert (P : all plainc (map lower after)) by (destruct Ps as [[E _]|H]; [rewrite E; constructor|eapply listed_plain; [|exact H]; intros w x Q; now apply (piece_plain g w x)]).
  apply plain_newline in P. apply P. rewrite <- lower_fix_newline. now apply in_map.
Qed.
Lemma lines_read ls gs fs : file_lines ls gs fs -> Forall (fun l => ~ In newline l) ls /\ filter is_group_line (map str_strip ls) = gs /\ filter is_rule_line (map str_strip ls) = fs.
Proof.
  induction 1 as [|a line b ls gs fs A B _ (I1 & I2 & I3) (g & n & v & H)|a line b ls gs fs A B _ (I1 & I2 & I3) (g & its & ps & H) V1 V2|s ls gs fs N1 N2 N3 _ (I1 & I2 & I3)].
  - repeat constructor.
  - destruct (group_facts g line n v H) as (F1 & F2 & F3 & F4). cbn [map filter]. rewrite strip_margins by assumption.
    assert (R : is_rule_line line = false) by (unfold is_rule_line; now rewrite F4). rewrite F4, R, I2, I3. repeat split; auto. constructor; [|exact I1].
    apply plain_newline. apply all_app. split; [now apply margin_space|]. apply all_app. split; [exact F3|now apply margin_space].
  - destruct (flow_facts g line its ps H) as (F1 & F2 & F3). cbn [map filter]. rewrite strip_margins; try assumption.
    + rewrite F2, F3, I2, I3. repeat split; auto. constructor; [|exact I1].
      apply plain_newline. apply all_app. split; [now apply margin_space|]. apply all_app. split; [exact F1|now apply margin_space].
    + destruct V1 as (c & t & -> & Vc). now apply visible_unsep.
  - cbn [map filter]. assert (X : is_group_line (str_strip s) = false) by (apply mentions_contains; now apply strip_other).
    assert (Y : is_rule_line (str_strip s) = false).
    { unfold is_rule_line. rewrite (mentions_contains (T "actions=") (str_strip s)); [apply andb_false_r|now apply strip_other]. }
    rewrite X, Y, I2, I3. repeat split; auto.
Qed.
Lemma file_read r ls gs fs g r' l : ls <> [] -> file_lines ls gs fs -> groups_text [] gs g -> flows_text r g fs r' l -> ruleset_from_ovs r (file_text ls) = Ok (r', l).
Proof.
  intros N L G F. destruct (lines_read ls gs fs L) as (L1 & L2 & L3). unfold ruleset_from_ovs, file_text. rewrite split_separated by assumption. rewrite L2, L3.
  destruct (groups_read [] gs g G (NoDup_nil _)) as [E ND]. rewrite E. cbn [rbind]. now apply flows_read.
Qed.
