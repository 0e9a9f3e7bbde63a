(** Lemmas about the regular expressions of Ovs.v. *)
From Coq Require Import Lia ZifyBool ZifyNat.
From Verif Require Import Ovs FormatProofs.
Import Text.
Local Open Scope string_scope.
Local Open Scope list_scope.
Local Open Scope Z_scope.

(** what follows does not start with a character of the class *)
Definition stop (f : ascii -> bool) (v : text) : Prop := match v with [] => True | x :: _ => f x = false end.
Definition all (f : ascii -> bool) (u : text) : Prop := Forall (fun x => f x = true) u.
(** [eats r u cs ok]: before a text that satisfies [ok] the pattern takes exactly [u], provided
    that the rest of the pattern then matches *)
Definition eats (r : re) (u : text) (cs : caps) (ok : text -> Prop) : Prop :=
  forall v c k res, ok v -> k v (c ++ cs) = Some res -> run r (u ++ v) c k = Some res.

Lemma eats_weaken r u cs (ok ok' : text -> Prop) : eats r u cs ok -> (forall v, ok' v -> ok v) -> eats r u cs ok'.
Proof. intros H W v c k res O. apply H. auto. Qed.
Lemma eats_eps : eats Eps [] [] (fun _ => True).
Proof. intros v c k res _ H. rewrite app_nil_r in H. exact H. Qed.
Lemma eats_word w : eats (Word w) w [] (fun _ => True).
Proof.
  induction w as [|x w IH]; [apply eats_eps|]. intros v c k res _ H. cbn [Word run app]. rewrite Ascii.eqb_refl. now apply IH.
Qed.
Lemma eats_cls f x : f x = true -> eats (Cls f) [x] [] (fun _ => True).
Proof. intros E v c k res _ H. cbn [run app]. rewrite E. rewrite app_nil_r in H. exact H. Qed.
Lemma eats_star f u : all f u -> eats (Star f) u [] (stop f).
Proof.
  intros A v c k res St H. rewrite app_nil_r in H. cbn [run].
  induction A as [|x u Ex A IH]; cbn [app].
  - destruct v as [|x v]; [exact H|]. cbn [stop] in St. rewrite St. exact H.
  - rewrite Ex, IH. reflexivity.
Qed.
Lemma eats_seq a b u1 u2 cs1 cs2 (ok1 ok2 : text -> Prop) : eats a u1 cs1 ok1 -> eats b u2 cs2 ok2 ->
  eats (Seq a b) (u1 ++ u2) (cs1 ++ cs2) (fun v => ok2 v /\ ok1 (u2 ++ v)).
Proof.
  intros A B v c k res [O2 O1] H. cbn [run]. rewrite <- app_assoc. apply A; [exact O1|]. apply B; [exact O2|]. rewrite <- app_assoc. exact H.
Qed.
Lemma eats_plus f x u : f x = true -> all f u -> eats (Plus f) (x :: u) [] (stop f).
Proof.
  intros E A. eapply eats_weaken; [apply (eats_seq (Cls f) (Star f) [x] u [] []); [apply eats_cls, E|apply eats_star, A]|].
  intros v O. split; [exact O|auto].
Qed.
Lemma eats_cap a u cs ok : eats a u cs ok -> eats (Cap a) u (cs ++ [Some u]) ok.
Proof.
  intros A v c k res O H. cbn [run]. apply A; [exact O|]. rewrite app_length, Nat.add_sub, firstn_app, firstn_all, Nat.sub_diag.
  cbn [firstn]. rewrite app_nil_r, <- app_assoc. exact H.
Qed.
Lemma eats_alt_l a b u cs ok : eats a u cs ok -> eats (Alt a b) u cs ok.
Proof. intros A v c k res O H. cbn [run]. now rewrite (A v c k res O H). Qed.
Lemma eats_opt a u cs ok : eats a u cs ok -> eats (Opt a) u cs ok.
Proof. intros A v c k res O H. cbn [run]. now rewrite (A v c k res O H). Qed.

(** ** Failure *)
Definition fails (r : re) (s : text) : Prop := forall c k, run r s c k = None.
Fixpoint nomatch (r : re) (s : text) {struct r} : bool :=
  match r with
  | Cls f => match s with x :: _ => negb (f x) | [] => false end
  | Seq a b =>
    nomatch a s || match a with
                   | Cls _ => match s with _ :: t => nomatch b t | [] => false end
                   | Eps => nomatch b s
                   | _ => false
                   end
  | Alt a b => nomatch a s && nomatch b s
  | Cap a => nomatch a s
  | _ => false
  end.
Lemma nomatch_fails r : forall p t, nomatch r p = true -> fails r (p ++ t).
Proof.
  induction r as [|f|f|a IHa b IHb|a IHa b IHb|a IHa|a IHa|a IHa|]; intros p t H c k; try discriminate H; cbn [nomatch] in H.
  - destruct p as [|x p]; [discriminate|]. cbn [app run]. apply negb_true_iff in H. now rewrite H.
  - cbn [run]. apply orb_true_iff in H as [H|H]; [now apply IHa|].
    destruct a; try discriminate H; [now apply IHb|]. destruct p as [|x p]; [discriminate|]. cbn [app run].
    destruct (f x); [now apply IHb|reflexivity].
  - apply andb_true_iff in H as [Ha Hb]. cbn [run]. rewrite (IHa p t Ha). now apply IHb.
  - cbn [run]. now apply IHa.
Qed.
Lemma nomatch_end r s : nomatch r s = true -> fails r s.
Proof. intros H. rewrite <- (app_nil_r s). now apply nomatch_fails. Qed.

(** no character of the class starts a match *)
Definition all_ascii : list ascii := map (fun n => ascii_of_nat n) (seq 0 256).
Lemma in_all_ascii x : In x all_ascii.
Proof. apply in_map_iff. exists (nat_of_ascii x). split; [apply ascii_nat_embedding|]. apply in_seq. pose proof (nat_ascii_bounded x). lia. Qed.
Definition never_starts (f : ascii -> bool) (r : re) : bool := forallb (fun x => negb (f x) || nomatch r [x]) all_ascii.
Lemma never_starts_fails f r x t : never_starts f r = true -> f x = true -> fails r (x :: t).
Proof.
  intros H E. unfold never_starts in H. rewrite forallb_forall in H. specialize (H x (in_all_ascii x)). rewrite E in H. cbn [negb orb] in H.
  exact (nomatch_fails r [x] t H).
Qed.
(** a token that starts differently, after any white space *)
Lemma star_fails f sp s k : all f sp -> stop f s -> k s = None -> (forall x t, f x = true -> k (x :: t) = None) ->
  (fix go s := match s with
               | [] => k []
               | x :: t => if f x then match go t with Some r => Some r | None => k s end else k s
               end) (sp ++ s) = @None (text * caps).
Proof.
  intros Sp St K Kx. induction Sp as [|x sp E Sp IH]; cbn [app].
  - destruct s as [|x s]; [exact K|]. cbn [stop] in St. now rewrite St.
  - rewrite E, IH. now apply Kx.
Qed.
Lemma token_fails expr sp s : all re_space sp -> never_starts re_space expr = true -> fails expr s -> stop re_space s -> match_token expr (sp ++ s) = None.
Proof.
  intros Sp N F St. unfold match_token, re_match, token.
  set (rest := (Star re_space ;; Alt (W ",") End ;; _)). cbn [run].
  match goal with |- context [run expr _ _ ?k0] => set (k := k0) end.
  erewrite (star_fails re_space sp s (fun s' => run expr s' [] k)); [reflexivity|exact Sp|exact St|apply F|].
  intros x t E. apply (never_starts_fails re_space expr x t N E).
Qed.

(** the white space in front is skipped *)
Definition after_token : re := Star re_space ;; Alt (W ",") End ;; Cap (Star (fun c => negb (Ascii.eqb c newline))).
Lemma star_max f sp s (k : text -> option (text * caps)) : all f sp -> stop f s -> (forall x t, f x = true -> k (x :: t) = None) ->
  (fix go s := match s with
               | [] => k []
               | x :: t => if f x then match go t with Some r => Some r | None => k s end else k s
               end) (sp ++ s) = k s.
Proof.
  intros Sp St Kx. induction Sp as [|x sp E Sp IH]; cbn [app].
  - destruct s as [|x s]; [reflexivity|]. cbn [stop] in St. now rewrite St.
  - rewrite E, IH. destruct (k s); [reflexivity|]. now apply Kx.
Qed.
Lemma token_at expr sp s : all re_space sp -> never_starts re_space expr = true -> stop re_space s ->
  match_token expr (sp ++ s) = option_map snd (run (expr ;; after_token) s [] (fun s' c => Some (s', c))).
Proof.
  intros Sp N St. unfold match_token, re_match, token. fold after_token.
  change (run (Star re_space ;; expr ;; after_token) (sp ++ s) [] (fun s' c => Some (s', c))) with
    ((fix go s0 := match s0 with
                   | [] => run (expr ;; after_token) [] [] (fun s' c => Some (s', c))
                   | x :: t => if re_space x then match go t with Some r => Some r | None => run (expr ;; after_token) s0 [] (fun s' c => Some (s', c)) end
                               else run (expr ;; after_token) s0 [] (fun s' c => Some (s', c))
                   end) (sp ++ s)).
  rewrite (star_max re_space sp s (fun s0 => run (expr ;; after_token) s0 [] (fun s' c => Some (s', c)))); auto.
  intros x t E. cbn [run]. apply (never_starts_fails re_space expr x t N E).
Qed.

(** ** Success of a token *)
(** the end of a token: nothing, or a comma and the rest of the line *)
Inductive tail_of : text -> text -> Prop :=
| tail_end : tail_of [] []
| tail_comma rest : ~ In newline rest -> tail_of ("," :: rest)%char rest.
Lemma after_ok sp tl rest c : all re_space sp -> tail_of tl rest ->
  run after_token (sp ++ tl) c (fun s' c => Some (s', c)) = Some ([], c ++ [Some rest]).
Proof.
  intros Sp Tl. unfold after_token. set (N := fun c => negb (Ascii.eqb c newline)). set (A := Alt (W ",") End).
  change (run (Star re_space) (sp ++ tl) c (fun s3 c3 => run A s3 c3 (fun s4 c4 => run (Cap (Star N)) s4 c4 (fun s' c => Some (s', c)))) = Some ([], c ++ [Some rest])).
  assert (S2 : stop re_space tl) by (destruct Tl; [exact I|reflexivity]).
  apply (eats_star re_space sp Sp); [exact S2|]. rewrite !app_nil_r. destruct Tl as [|rest Nr].
  - reflexivity.
  - change ("," :: rest)%char with (T "," ++ rest). apply (eats_alt_l (W ",") End (T ",") [] _ (eats_word (T ","))); [exact I|].
    rewrite app_nil_r. pattern rest at 1. rewrite <- (app_nil_r rest).
    apply (eats_cap (Star N) rest [] (stop N)); [|exact I|reflexivity]. apply eats_star. apply Forall_forall. intros x Hx.
    apply negb_true_iff, Ascii.eqb_neq. congruence.
Qed.
Lemma token_ok expr sp u sp' tl rest cs ok : all re_space sp -> all re_space sp' -> tail_of tl rest ->
  stop re_space (u ++ sp' ++ tl) -> eats expr u cs ok -> ok (sp' ++ tl) ->
  match_token expr (sp ++ u ++ sp' ++ tl) = Some (cs ++ [Some rest]).
Proof.
  intros Sp Sp' Tl St E O. unfold match_token, re_match, token. fold after_token.
  assert (H : run (Star re_space ;; expr ;; after_token) (sp ++ u ++ sp' ++ tl) [] (fun s' c => Some (s', c)) = Some ([], cs ++ [Some rest])).
  { change (run (Star re_space) (sp ++ u ++ sp' ++ tl) [] (fun s1 c1 => run expr s1 c1 (fun s2 c2 => run after_token s2 c2 (fun s' c => Some (s', c)))) = Some ([], cs ++ [Some rest])).
    apply (eats_star re_space sp Sp); [exact St|]. cbn [app]. apply E; [exact O|]. cbn [app]. now apply after_ok. }
  rewrite H. reflexivity.
Qed.

(** ** Lists of tokens *)
Definition misses (p : text) (r : re) : bool := never_starts re_space r && nomatch r p.
Definition solid (p : text) : bool := match p with [] => false | x :: _ => negb (re_space x) end.
Lemma solid_stop p t : solid p = true -> stop re_space (p ++ t).
Proof. destruct p as [|x p]; [discriminate|]. cbn. now destruct (re_space x). Qed.
Lemma token_miss r sp p t : all re_space sp -> solid p = true -> misses p r = true -> match_token r (sp ++ p ++ t) = None.
Proof.
  intros Sp S M. apply andb_true_iff in M as [M1 M2]. apply token_fails; auto; [now apply nomatch_fails|now apply solid_stop].
Qed.
Lemma first_token_at {X} (l : list (re * X)) n r x sp p t c : all re_space sp -> solid p = true ->
  nth_error l n = Some (r, x) -> forallb (fun e => misses p (fst e)) (firstn n l) = true ->
  match_token r (sp ++ p ++ t) = Some c -> first_token l (sp ++ p ++ t) = Some (x, c).
Proof.
  intros Sp S N F M. revert n N F. induction l as [|[r' x'] l IH]; intros n N F; [destruct n; discriminate|]. cbn [first_token].
  destruct n as [|n]; cbn [nth_error firstn forallb] in *.
  - injection N as -> ->. now rewrite M.
  - apply andb_true_iff in F as [F1 F2]. cbn [fst] in F1. rewrite (token_miss r' sp p t Sp S F1). now apply (IH n).
Qed.
Lemma first_token_none {X} (l : list (re * X)) sp p t : all re_space sp -> solid p = true ->
  forallb (fun e => misses p (fst e)) l = true -> first_token l (sp ++ p ++ t) = None.
Proof.
  intros Sp S F. induction l as [|[r x] l IH]; [reflexivity|]. cbn [first_token forallb fst] in *. apply andb_true_iff in F as [F1 F2].
  now rewrite (token_miss r sp p t Sp S F1), IH.
Qed.
