(** The incremental construction of the dependency graph. *)
From Coq Require Import Lia Permutation Sorted.
From Coq Require Import ZifyBool ZifyNat ZifyN.
From Verif Require Import SpecBdd WildcardProofs MatchProofs BddProofs CuddProofs BddApi SpecPipeline MergeProofs Deps SpecDeps DepsProofs DepsTable DepsAny.
Local Open Scope string_scope.
Local Open Scope list_scope.
Local Open Scope Z_scope.
Local Opaque NB WC_FULLWC layout oxm_fields registry_init.

Section Inc.
  Context (SHIFT one : Z) (ord : list nat -> list nat) (Hs : 0 < SHIFT) (Hs2 : SHIFT mod 2 = 0) (one_nz : one <> 0)
          (ord_perm : forall l, Permutation (ord l) l).

  (** [fallsN]: like [falls], over a set of nodes without overlapping rules of equal priority *)
  Definition fallsN (L : list node) (i j : nat) (p : packet) : Prop :=
    exists R S, In R L /\ In S L /\ nid R = i /\ nid S = j /\ nprio S < nprio R /\ on (nbdd R) p /\ on (nbdd S) p /\
    forall T, In T L -> nprio T < nprio R -> on (nbdd T) p -> nprio T <= nprio S.
  Definition sep (L : list node) : Prop := forall R S p, In R L -> In S L -> nprio R = nprio S -> on (nbdd R) p -> on (nbdd S) p -> R = S.
  Definition sync (d : list (edge * add)) (pte : ptable) : Prop := forall c j, In c (pget pte j) <-> eget d (c, j) <> None.
  Definition pnodup (pte : ptable) : Prop := forall j, NoDup (pget pte j).
  Record exact (L : list node) (d : list (edge * add)) (pte : ptable) : Prop := mkExact {
    ex_keys : NoDup (map fst d);
    ex_sound : forall i j b, eget d (i, j) = Some b -> mask one b /\ (exists p, on b p) /\ forall p, on b p <-> fallsN L i j p;
    ex_complete : forall i j p, fallsN L i j p -> exists b, eget d (i, j) = Some b;
    ex_sync : sync d pte;
    ex_pn : pnodup pte }.

  Lemma falls_next L R D p : In R L -> on (nbdd R) p -> In D L -> nprio D < nprio R -> on (nbdd D) p ->
    exists S, In S L /\ nprio S < nprio R /\ on (nbdd S) p /\ fallsN L (nid R) (nid S) p.
  Proof.
    intros HR OR HD Lt OD.
    destruct (max_exists (fun x => nprio x) (filter (fun x => (nprio x <? nprio R) && onb p x) L)) as (S & HS & Mx).
    - intros E. assert (X : In D (filter (fun x => (nprio x <? nprio R) && onb p x) L)).
      { apply filter_In. split; [auto|]. apply andb_true_iff. split; [lia|now apply onb_on]. }
      rewrite E in X. destruct X.
    - apply filter_In in HS as [HS Q]. apply andb_true_iff in Q as [Q1 Q2]. apply onb_on in Q2. exists S. split; [auto|]. split; [lia|]. split; [auto|].
      exists R, S. repeat split; auto; [lia|]. intros T HT LT OT. apply Mx. apply filter_In. split; [auto|]. apply andb_true_iff.
      split; [lia|now apply onb_on].
  Qed.

  (** ** _find_affected_edges *)
  Definition amem (aff : list (nat * list edge)) (c x : nat) : Prop := exists es, In (c, es) aff /\ In (c, x) es.
  Definition aff_ok (aff : list (nat * list edge)) : Prop :=
    NoDup (map fst aff) /\ forall c es, In (c, es) aff -> es <> [] /\ NoDup es /\ forall e, In e es -> fst e = c.
  Lemma aff_add_keys aff c e k : In k (map fst (aff_add aff c e)) <-> k = c \/ In k (map fst aff).
  Proof.
    induction aff as [|[a es] aff IH]; cbn [aff_add map fst In]; [intuition auto|].
    destruct (Nat.eqb_spec a c) as [->|N]; cbn [map fst In]; [intuition auto|]. rewrite IH. intuition auto.
  Qed.
  Lemma aff_add_mem aff c x c' x' : amem (aff_add aff c (c, x)) c' x' <-> amem aff c' x' \/ (c' = c /\ x' = x).
  Proof.
    induction aff as [|[a es] aff IH]; cbn [aff_add].
    - unfold amem. cbn [In]. split.
      + intros (es & [[= <- <-]|[]] & [[= <-]|[]]). auto.
      + intros [(es & [] & _)|[-> ->]]. exists [(c, x)]. cbn. auto.
    - destruct (Nat.eqb_spec a c) as [->|N].
      + unfold amem. cbn [In]. split.
        * intros (es' & [[= <- <-]|H] & H2).
          -- apply in_app_or in H2 as [H2|[[= <-]|[]]]; [left; exists es; auto|auto].
          -- left. exists es'. auto.
        * intros [(es' & [[= <- <-]|H] & H2)|[-> ->]].
          -- exists (es ++ [(c, x)]). split; [auto|]. apply in_or_app. auto.
          -- exists es'. auto.
          -- exists (es ++ [(c, x)]). split; [auto|]. apply in_or_app. cbn. auto.
      + assert (Q : forall l, amem ((a, es) :: l) c' x' <-> (a = c' /\ In (c', x') es) \/ amem l c' x').
        { intros l. unfold amem. cbn [In]. split.
          - intros (es' & [[= <- <-]|H] & H2); eauto.
          - intros [[<- H]|(es' & H & H2)]; eauto. }
        rewrite !Q, IH. tauto.
  Qed.
  Lemma aff_add_ok aff c x : aff_ok aff -> ~ amem aff c x -> aff_ok (aff_add aff c (c, x)).
  Proof.
    induction aff as [|[a es] aff IH]; intros [ND H] Hn; cbn [aff_add].
    - split; [cbn; repeat constructor; auto|]. intros c' es' [[= <- <-]|[]]. split; [discriminate|]. split; [repeat constructor; auto|].
      intros e [<-|[]]. reflexivity.
    - cbn [map fst] in ND. inversion ND as [|? ? Ha ND']; subst.
      destruct (Nat.eqb_spec a c) as [->|N].
      + split; [exact ND|]. intros c' es' [[= <- <-]|H2]; [|apply H; now right].
        destruct (H c es (or_introl eq_refl)) as (H3 & H4 & H5). split; [now destruct es|]. split.
        * apply (Permutation_NoDup (Permutation_cons_append es (c, x))). constructor; [|auto]. intros X. apply Hn. exists es. split; [now left|auto].
        * intros e He. apply in_app_or in He as [He|[<-|[]]]; auto.
      + destruct IH as [IH1 IH2].
        * split; [auto|]. intros c' es' Hc. apply H. now right.
        * intros (es' & H1 & H2). apply Hn. exists es'. split; [now right|auto].
        * split.
          -- cbn [map fst]. constructor; [|auto]. rewrite aff_add_keys. intros [->|X]; auto.
          -- intros c' es' [[= <- <-]|Hc]; [apply H; now left|auto].
  Qed.

  Section Find.
    Context (ns L : list node) (d : list (edge * add)) (pte : ptable) (new : node).
    Context (ns_nd : NoDup (map nid ns)) (L_ns : incl L ns) (ns_ok : Forall (node_ok one) ns) (new_ns : In new ns)
            (Ex : exact L d pte).
    Definition cand (c : nat) : Prop := exists n, In n L /\ nid n = c /\ nprio n < nprio new /\ exists p, on (nbdd n) p /\ on (nbdd new) p.
    Definition hi (c x : nat) : Prop := exists n b, In n L /\ nid n = c /\ nprio new < nprio n /\ eget d (c, x) = Some b /\ exists p, on b p /\ on (nbdd new) p.

    Lemma node_of_ok n : In n ns -> node_of ns (nid n) = Ok n.
    Proof.
      intros H. unfold node_of. destruct (find (fun x => Nat.eqb (nid x) (nid n)) ns) as [x|] eqn:E.
      - apply find_some in E as [Hx E]. apply Nat.eqb_eq in E. f_equal. now apply (NoDup_map_eq nid ns).
      - apply find_none with (x := n) in E; [|auto]. now rewrite Nat.eqb_refl in E.
    Qed.
    Lemma child_node c x : In c (pget pte x) -> exists n b, In n L /\ nid n = c /\ eget d (c, x) = Some b /\ mask one b.
    Proof.
      intros H. apply (ex_sync _ _ _ Ex) in H. destruct (eget d (c, x)) as [b|] eqn:E; [|congruence].
      destruct (ex_sound _ _ _ Ex _ _ _ E) as (M & (p & Hp) & F). apply F in Hp as (R & S & HR & _ & ER & _). exists R, b. auto.
    Qed.
    Lemma pp_bound pp : NoDup pp -> (forall c, In c pp -> In c (map nid ns)) -> (List.length pp <= List.length ns)%nat.
    Proof. intros H1 H2. rewrite <- (map_length nid ns). now apply NoDup_incl_length. Qed.
    Lemma cand_in c : cand c -> In c (map nid ns).
    Proof. intros (n & H & <- & _). apply in_map, L_ns, H. Qed.

    Definition post (rule : nat) (done : list nat) (s0 s : list (nat * list edge) * list nat) : Prop :=
      exists ext, snd s = snd s0 ++ ext /\ NoDup (snd s) /\ (forall c, In c ext -> cand c) /\ aff_ok (fst s) /\
      (forall c, In c done -> cand c -> In c (snd s)) /\ (forall x c, In x ext -> In c (pget pte x) -> cand c -> In c (snd s)) /\
      (forall c x, amem (fst s) c x <-> amem (fst s0) c x \/ (x = rule /\ In c done /\ hi c x) \/ (In x ext /\ In c (pget pte x) /\ hi c x)).
    Definition pre (rule : nat) (s : list (nat * list edge) * list nat) : Prop :=
      NoDup (snd s) /\ (forall c, In c (snd s) -> In c (map nid ns)) /\ In rule (snd s) /\ aff_ok (fst s) /\
      forall c x, amem (fst s) c x -> In x (snd s) /\ x <> rule.

    Lemma find_ok fuel : forall rule s0, pre rule s0 -> (S (List.length ns) <= fuel + List.length (snd s0))%nat ->
      exists s, find_affected ord fuel ns d pte new rule s0 = Ok s /\ post rule (pget pte rule) s0 s.
    Proof.
      induction fuel as [|fuel IH]; intros rule s0 (P1 & P2 & P3 & P4 & P5) Hf.
      - exfalso. assert (B := pp_bound _ P1 P2). lia.
      - cbn [find_affected].
        match goal with |- exists s, rfold ?f _ _ = _ /\ _ => set (step := f) end.
        assert (G : forall todo done s, (forall c, In c (done ++ todo) -> In c (pget pte rule)) -> NoDup (done ++ todo) -> post rule done s0 s ->
          exists s', rfold step todo s = Ok s' /\ post rule (done ++ todo) s0 s').
        { induction todo as [|c todo IHt]; intros done s Hc ND Hp.
          - cbn [rfold]. rewrite app_nil_r. eauto.
          - cbn [rfold].
            assert (Step : exists s1, step s c = Ok s1 /\ post rule (done ++ [c]) s0 s1).
            { destruct Hp as (ext & E1 & E2 & E3 & E4 & E5 & E6 & E7).
              assert (Cin : In c (pget pte rule)) by (apply Hc; apply in_elt).
              destruct (child_node c rule Cin) as (n & b & Hn & En & Eb & Mb).
              assert (Nm : ~ In c done). { intros X. apply NoDup_remove_2 in ND. apply ND. apply in_or_app. auto. }
              rewrite Forall_forall in ns_ok. destruct (ns_ok new new_ns) as [Mnew _]. destruct (ns_ok n (L_ns n Hn)) as [Mn _].
              unfold step. replace (node_of ns c) with (Ok n) by (rewrite <- En; symmetry; apply node_of_ok; auto). cbn [rbind].
              assert (Weak : (cand c -> In c (snd s)) -> (~ hi c rule) -> post rule (done ++ [c]) s0 s).
              { intros W1 W2. exists ext. split; [auto|]. split; [auto|]. split; [auto|]. split; [auto|]. split; [|split; [auto|]].
                - intros c' H Hcand. apply in_app_or in H as [H|[<-|[]]]; auto.
                - intros c' x'. rewrite E7. split.
                  + intros [H|[(A & B & C)|H]]; auto. right. left. repeat split; auto. apply in_or_app. auto.
                  + intros [H|[(A & B & C)|H]]; auto. right. left. split; [auto|]. split; [|auto].
                    apply in_app_or in B as [B|[<-|[]]]; [auto|]. exfalso. subst x'. contradiction. }
              assert (Uni : forall m, In m L -> nid m = c -> m = n).
              { intros m Hm Em. apply (NoDup_map_eq nid ns); auto; congruence. }
              destruct (nprio new <? nprio n) eqn:T1.
              - rewrite Eb. destruct (mask_inter one one_nz b (nbdd new) Mb Mnew) as [Mi Oi].
                assert (NC : ~ cand c). { intros (m & A & B & C & _). rewrite (Uni m A B) in C. lia. }
                destruct (cudd_bool (binter b (nbdd new))) eqn:Cb.
                + apply (cudd_bool_on _ (proj1 Mi)) in Cb as [p Hp]. apply Oi in Hp.
                  assert (Hhi : hi c rule). { exists n, b. repeat split; auto; [lia|eauto]. }
                  assert (Na : ~ amem (fst s) c rule).
                  { intros X. apply E7 in X as [X|[(_ & X & _)|(X & _)]].
                    - apply P5 in X as [_ X]. congruence.
                    - contradiction.
                    - rewrite E1 in E2. clear - X P3 E2. revert E2. induction (snd s0) as [|y l IHl]; [destruct P3|]. cbn [app]. intros H.
                      inversion H as [|? ? Hy Hl]; subst. destruct P3 as [->|P3]; [|auto]. apply Hy. apply in_or_app. auto. }
                  eexists. split; [reflexivity|]. exists ext. cbn [fst snd]. split; [auto|]. split; [auto|]. split; [auto|].
                  split; [now apply aff_add_ok|]. split; [|split].
                  * intros c' H Hcand. apply in_app_or in H as [H|[<-|[]]]; [auto|contradiction].
                  * auto.
                  * intros c' x'. rewrite aff_add_mem, E7. split.
                    -- intros [[H|[(A & B & C)|H]]|[-> ->]]; auto.
                       ++ right. left. repeat split; auto. apply in_or_app. auto.
                       ++ right. left. repeat split; auto. apply in_or_app. cbn. auto.
                    -- intros [H|[(A & B & C)|H]]; auto. apply in_app_or in B as [B|[<-|[]]]; auto. left. right. left. auto.
                + eexists. split; [reflexivity|]. apply Weak; [intros X; contradiction|].
                  intros (m & b' & _ & _ & _ & A & p & B & C). rewrite Eb in A. injection A as <-.
                  apply (cudd_bool_off _ (proj1 Mi)) with (p := p) in Cb. apply Cb. now apply Oi.
              - assert (Nh : ~ hi c rule). { intros (m & b' & A & B & C & _). rewrite (Uni m A B) in C. lia. }
                destruct (nprio n <? nprio new) eqn:T2.
                + destruct (mask_inter one one_nz (nbdd n) (nbdd new) Mn Mnew) as [Mi Oi].
                  destruct (existsb (Nat.eqb c) (snd s)) eqn:Xs; cbn [negb andb].
                  * eexists. split; [reflexivity|]. apply Weak; [|auto]. intros _. apply existsb_exists in Xs as (y & Hy & E). apply Nat.eqb_eq in E. congruence.
                  * assert (Ns : ~ In c (snd s)).
                    { intros X. assert (existsb (Nat.eqb c) (snd s) = true); [|congruence]. apply existsb_exists. exists c. split; [auto|apply Nat.eqb_refl]. }
                    destruct (cudd_bool (binter (nbdd n) (nbdd new))) eqn:Cb.
                    -- apply (cudd_bool_on _ (proj1 Mi)) in Cb as [p Hp]. apply Oi in Hp.
                       assert (Hcand : cand c). { exists n. repeat split; auto; [lia|eauto]. }
                       destruct (IH c (fst s, snd s ++ [c])) as (s1 & F1 & (ext1 & G1 & G2 & G3 & G4 & G5 & G6 & G7)).
                       { split; [apply (Permutation_NoDup (Permutation_cons_append _ _)); constructor; auto|]. split; [|split; [|split]].
                         - cbn [snd]. intros c' H. apply in_app_or in H as [H|[<-|[]]]; [|now apply cand_in].
                           rewrite E1 in H. apply in_app_or in H as [H|H]; [auto|]. now apply cand_in, E3.
                         - cbn [snd]. apply in_or_app. cbn. auto.
                         - exact E4.
                         - cbn [fst snd]. intros c' x' H. assert (In x' (snd s)).
                           { apply E7 in H as [H|[(-> & _)|(H & _)]].
                             - apply P5 in H as [H _]. rewrite E1. apply in_or_app. auto.
                             - rewrite E1. apply in_or_app. auto.
                             - rewrite E1. apply in_or_app. auto. }
                           split; [apply in_or_app; auto|]. intros ->. contradiction. }
                       { cbn [snd]. rewrite app_length. cbn [List.length]. rewrite E1, app_length. lia. }
                       exists s1. split; [exact F1|]. cbn [fst snd] in *. exists (ext ++ c :: ext1).
                       split; [rewrite G1, E1, <- !app_assoc; reflexivity|]. split; [exact G2|]. split; [|split; [exact G4|split; [|split]]].
                       ++ intros c' H. apply in_app_or in H as [H|[<-|H]]; auto.
                       ++ intros c' H Hc'. apply in_app_or in H as [H|[<-|[]]].
                          ** rewrite G1. apply in_or_app. left. apply in_or_app. left. auto.
                          ** rewrite G1. apply in_or_app. left. apply in_or_app. cbn. auto.
                       ++ intros x' c' H H' Hc'. apply in_app_or in H as [H|[<-|H]].
                          ** rewrite G1. apply in_or_app. left. apply in_or_app. left. eauto.
                          ** auto.
                          ** eauto.
                       ++ intros c' x'. rewrite G7, E7. split.
                          ** intros [[H|[(A & B & C)|(A & B & C)]]|[(-> & B & C)|(A & B & C)]]; auto.
                             --- right. left. repeat split; auto. apply in_or_app. auto.
                             --- right. right. repeat split; auto. apply in_or_app. auto.
                             --- right. right. repeat split; auto. apply in_or_app. cbn. auto.
                             --- right. right. repeat split; auto. apply in_or_app. cbn. auto.
                          ** intros [H|[(A & B & C)|(A & B & C)]]; auto.
                             --- apply in_app_or in B as [B|[<-|[]]]; [auto 6|]. subst x'. contradiction.
                             --- apply in_app_or in A as [A|[<-|A]]; auto 6.
                    -- eexists. split; [reflexivity|]. apply Weak; [|auto]. intros (m & A & B & C & p & D1 & D2). rewrite (Uni m A B) in D1.
                       exfalso. apply (cudd_bool_off _ (proj1 Mi)) with (p := p) in Cb. apply Cb. now apply Oi.
                + eexists. split; [reflexivity|]. apply Weak; [|auto]. intros (m & A & B & C & _). rewrite (Uni m A B) in C. lia. }
            destruct Step as (s1 & F1 & Q1). rewrite F1. cbn [rbind].
            destruct (IHt (done ++ [c]) s1) as (s' & F' & Q'); [now rewrite <- app_assoc|now rewrite <- app_assoc|exact Q1|].
            exists s'. split; [exact F'|]. now rewrite <- app_assoc in Q'. }
        destruct (G (ord (pget pte rule)) [] s0) as (s & F & Q).
        + cbn [app]. intros c H. now apply (Permutation_in _ (ord_perm _)).
        + cbn [app]. apply (Permutation_NoDup (Permutation_sym (ord_perm _))). apply (ex_pn _ _ _ Ex).
        + exists []. rewrite app_nil_r. split; [auto|]. split; [auto|]. split; [intros c []|]. split; [auto|]. split; [intros c []|]. split; [intros x c []|].
          intros c x. split; [auto|]. intros [H|[(_ & [] & _)|([] & _)]]. exact H.
        + exists s. split; [exact F|]. destruct Q as (ext & E1 & E2 & E3 & E4 & E5 & E6 & E7). exists ext. split; [auto|]. split; [auto|]. split; [auto|].
          split; [auto|]. split; [|split; [auto|]].
          * intros c H. apply E5. cbn [app]. now apply (Permutation_in _ (Permutation_sym (ord_perm _))).
          * intros c x. rewrite E7. cbn [app]. assert (X : In c (ord (pget pte rule)) <-> In c (pget pte rule)).
            { split; apply Permutation_in; [apply ord_perm|apply Permutation_sym, ord_perm]. }
            tauto.
    Qed.
  End Find.

  (** ** _process_affected_edges *)
  Definition shrink (new : node) (o : option add) : option add :=
    match o with None => None | Some b => let f := bsub b (nbdd new) in if cudd_bool f then Some f else None end.
  Lemma prem_ok pte j c : In c (pget pte j) -> exists pte', prem pte j c = Ok pte' /\
    (forall c' j', In c' (pget pte' j') <-> In c' (pget pte j') /\ ~ (c' = c /\ j' = j)) /\ (pnodup pte -> pnodup pte').
  Proof.
    intros H. unfold prem. assert (E : existsb (Nat.eqb c) (pget pte j) = true) by (apply existsb_exists; exists c; split; [auto|apply Nat.eqb_refl]).
    rewrite E. eexists. split; [reflexivity|]. split.
    - intros c' j'. rewrite pget_put. destruct (Nat.eqb_spec j j') as [<-|N].
      + rewrite filter_In, negb_true_iff, Nat.eqb_neq. split; intros [H1 H2]; (split; [auto|]); [intros [-> _]; congruence|intros ->; apply H2; auto].
      + split; [intros H1; split; [auto|]; intros [_ ->]; congruence|tauto].
    - intros P j'. rewrite pget_put. destruct (Nat.eqb j j'); [apply NoDup_filter|]; apply P.
  Qed.
  Lemma padd_nodup pte j c : pnodup pte -> pnodup (padd pte j c).
  Proof.
    intros H k. unfold padd. rewrite pget_put. destruct (Nat.eqb j k); [|apply H]. unfold set_add.
    destruct (existsb (Nat.eqb c) (pget pte j)) eqn:E; [apply H|]. apply (Permutation_NoDup (Permutation_cons_append _ _)). constructor; [|apply H].
    intros X. assert (existsb (Nat.eqb c) (pget pte j) = true); [|congruence]. apply existsb_exists. exists c. split; [auto|apply Nat.eqb_refl].
  Qed.

  Lemma process_edges new es : mask one (nbdd new) -> forall acc d pte, mask one acc -> NoDup (map fst d) -> NoDup es -> sync d pte -> pnodup pte ->
    (forall e, In e es -> exists b, eget d e = Some b /\ mask one b) ->
    exists acc' d' pte', rfold (process_edge new) es (acc, d, pte) = Ok (acc', d', pte') /\ mask one acc' /\
      (forall p, on acc' p <-> on acc p \/ exists e b, In e es /\ eget d e = Some b /\ on b p /\ on (nbdd new) p) /\
      NoDup (map fst d') /\ sync d' pte' /\ pnodup pte' /\
      (forall k, In k es -> eget d' k = shrink new (eget d k)) /\ (forall k, ~ In k es -> eget d' k = eget d k).
  Proof.
    intros Mn. induction es as [|e es IH]; intros acc d pte Ma NK NE Sy Pn He; cbn [rfold].
    - exists acc, d, pte. split; [reflexivity|]. split; [auto|]. split.
      { intros p. split; [auto|]. intros [H|(e & b & [] & _)]. exact H. }
      split; [auto|]. split; [auto|]. split; [auto|]. split; [intros k []|auto].
    - inversion NE as [|? ? Hn NE']; subst. destruct (He e (or_introl eq_refl)) as (b & Eb & Mb).
      destruct (mask_sub one one_nz b (nbdd new) Mb Mn) as [Ms Os]. destruct (mask_inter one one_nz b (nbdd new) Mb Mn) as [Mi Oi].
      assert (Step : exists acc1 d1 pte1, process_edge new (acc, d, pte) e = Ok (acc1, d1, pte1) /\ mask one acc1 /\
        (forall p, on acc1 p <-> on acc p \/ (on b p /\ on (nbdd new) p)) /\ NoDup (map fst d1) /\ sync d1 pte1 /\ pnodup pte1 /\
        eget d1 e = shrink new (eget d e) /\ (forall k, k <> e -> eget d1 k = eget d k)).
      { unfold process_edge. rewrite Eb. unfold shrink. destruct (cudd_bool (bsub b (nbdd new))) eqn:C.
        - destruct (mask_meld one one_nz acc _ Ma Mi) as [Mm Om]. eexists _, _, _. split; [reflexivity|]. split; [auto|].
          split; [intros p; rewrite Om, Oi; reflexivity|]. split; [now apply eset_nodup|]. split; [|split; [auto|split]].
          + intros c j. rewrite (Sy c j), eget_set. destruct (edge_eqb_spec e (c, j)) as [->|]; [|reflexivity]. rewrite Eb. split; discriminate.
          + rewrite eget_set, edge_eqb_refl. reflexivity.
          + intros k Hk. rewrite eget_set. destruct (edge_eqb_spec e k); [congruence|reflexivity].
        - destruct e as [c j]. cbn [fst snd]. destruct (prem_ok pte j c) as (pte' & Ep & Pi & Pd); [apply Sy; congruence|]. rewrite Ep. cbn [rbind].
          destruct (mask_meld one one_nz acc b Ma Mb) as [Mm Om]. eexists _, _, _. split; [reflexivity|]. split; [auto|]. split.
          + intros p. rewrite Om. assert (on b p -> on (nbdd new) p); [|tauto]. intros H. destruct (on_dec (nbdd new) p) as [Y|Y]; [auto|exfalso].
            apply (cudd_bool_off _ (proj1 Ms)) with (p := p) in C. apply C, Os. auto.
          + split; [now apply edel_nodup|]. split; [|split; [auto|split]].
            * intros c' j'. rewrite Pi, (Sy c' j'), eget_del by auto. destruct (edge_eqb_spec (c, j) (c', j')) as [[= -> ->]|N].
              -- split; [|congruence]. intros [_ H]. elim H. auto.
              -- split; [tauto|]. intros H. split; [auto|]. intros [-> ->]. congruence.
            * rewrite eget_del, edge_eqb_refl by auto. reflexivity.
            * intros k Hk. rewrite eget_del by auto. destruct (edge_eqb_spec (c, j) k); [congruence|reflexivity]. }
      destruct Step as (acc1 & d1 & pte1 & E1 & M1 & O1 & N1 & S1 & P1 & G1 & G2). rewrite E1. cbn [rbind].
      destruct (IH acc1 d1 pte1) as (acc' & d' & pte' & E' & M' & O' & N' & S' & P' & G1' & G2'); auto.
      { intros k Hk. rewrite G2 by congruence. apply He. now right. }
      exists acc', d', pte'. split; [exact E'|]. split; [auto|]. split.
      { intros p. rewrite O', O1. split.
        - intros [[H|[H1 H2]]|(k & b' & Hk & Ek & H1 & H2)]; auto.
          + right. exists e, b. cbn [In]. auto.
          + right. exists k, b'. rewrite G2 in Ek by congruence. cbn [In]. auto.
        - intros [H|(k & b' & [<-|Hk] & Ek & H1 & H2)]; auto.
          + left. right. rewrite Eb in Ek. injection Ek as <-. auto.
          + right. exists k, b'. rewrite G2 by congruence. auto. }
      split; [auto|]. split; [auto|]. split; [auto|]. split.
      + intros k [<-|Hk]; [rewrite G2' by auto; exact G1|]. rewrite G1' by auto. now rewrite G2 by congruence.
      + intros k Hk. cbn [In] in Hk. rewrite G2' by tauto. apply G2. intros ->. tauto.
  Qed.
  Lemma process_ok new aff : mask one (nbdd new) -> forall d pte, aff_ok aff -> NoDup (map fst d) -> sync d pte -> pnodup pte ->
    (forall c x, amem aff c x -> x <> nid new /\ exists b, eget d (c, x) = Some b /\ mask one b) ->
    exists d' pte', rfold (process_child new) aff (d, pte) = Ok (d', pte') /\ NoDup (map fst d') /\ sync d' pte' /\ pnodup pte' /\
      (forall i j, j <> nid new -> amem aff i j -> eget d' (i, j) = shrink new (eget d (i, j))) /\
      (forall i j, j <> nid new -> ~ amem aff i j -> eget d' (i, j) = eget d (i, j)) /\
      (forall i, In i (map fst aff) -> exists b, eget d' (i, nid new) = Some b /\ mask one b /\
         forall p, on b p <-> exists x bx, amem aff i x /\ eget d (i, x) = Some bx /\ on bx p /\ on (nbdd new) p) /\
      (forall i, ~ In i (map fst aff) -> eget d' (i, nid new) = eget d (i, nid new)).
  Proof.
    intros Mn. induction aff as [|[c es] aff IH]; intros d pte [ND Ha] NK Sy Pn He; cbn [rfold].
    - exists d, pte. split; [reflexivity|]. split; [auto|]. split; [auto|]. split; [auto|]. split; [intros i j _ (x & [] & _)|]. split; [auto|]. split; [intros i []|auto].
    - cbn [map fst] in ND. inversion ND as [|? ? Hc ND']; subst. destruct (Ha c es (or_introl eq_refl)) as (Hne & NE & Hf).
      assert (Mem : forall i j, amem ((c, es) :: aff) i j <-> (i = c /\ In (c, j) es) \/ amem aff i j).
      { intros i j. unfold amem. cbn [In]. split.
        - intros (es' & [[= <- <-]|H] & H2); eauto.
        - intros [[-> H]|(es' & H & H2)]; eauto. }
      assert (Nm : forall j, ~ amem aff c j). { intros j (es' & H & _). apply Hc. apply (in_map fst) in H. exact H. }
      assert (Es : forall e, In e es -> exists j, e = (c, j)). { intros [a j] H. specialize (Hf _ H). cbn in Hf. subst a. eauto. }
      destruct (process_edges new es Mn BK d pte (mask_BK one) NK NE Sy Pn) as (acc & d1 & pte1 & E1 & M1 & O1 & N1 & S1 & P1 & G1 & G2).
      { intros e H. destruct (Es e H) as [j ->]. apply (He c j). apply Mem. auto. }
      unfold process_child at 1. cbn [fst snd]. rewrite E1. cbn [rbind].
      destruct (IH (eset d1 (c, nid new) acc) (padd pte1 (nid new) c)) as (d' & pte' & E' & N' & S' & P' & A1 & A2 & A3 & A4).
      + split; [auto|]. intros c' es' H. apply Ha. now right.
      + now apply eset_nodup.
      + intros c' j'. rewrite padd_in, (S1 c' j'), eget_set. destruct (edge_eqb_spec (c, nid new) (c', j')) as [[= -> ->]|N].
        * split; [discriminate|]. auto.
        * split; [intros [[-> ->]|H]; [congruence|exact H]|auto].
      + now apply padd_nodup.
      + intros c' x H. destruct (He c' x) as (H1 & b & H2 & H3); [apply Mem; auto|]. split; [auto|]. exists b. split; [|auto].
        rewrite eget_set. destruct (edge_eqb_spec (c, nid new) (c', x)) as [[= <- <-]|_]; [congruence|].
        rewrite G2; [auto|]. intros X. destruct (Es _ X) as [j [= -> _]]. now apply (Nm x).
      + assert (Old : forall i j, j <> nid new -> eget (eset d1 (c, nid new) acc) (i, j) = eget d1 (i, j)).
        { intros i j Hj. rewrite eget_set. destruct (edge_eqb_spec (c, nid new) (i, j)); [congruence|reflexivity]. }
        assert (Same : forall i j, i <> c -> eget (eset d1 (c, nid new) acc) (i, j) = eget d (i, j)).
        { intros i j Hi. rewrite eget_set. destruct (edge_eqb_spec (c, nid new) (i, j)); [congruence|]. apply G2. intros X. destruct (Es _ X) as [j' E]. congruence. }
        exists d', pte'. split; [exact E'|]. split; [auto|]. split; [auto|]. split; [auto|]. split; [|split; [|split]].
        * intros i j Hj H. apply Mem in H as [[-> H]|H].
          -- rewrite A2 by auto. rewrite Old by auto. now apply G1.
          -- rewrite A1 by auto. f_equal. apply Same. intros ->. now apply (Nm j).
        * intros i j Hj H. rewrite A2; [|auto|intros X; apply H, Mem; auto]. rewrite Old by auto. apply G2. intros X. apply H, Mem. left.
          destruct (Es _ X) as [j' [= -> ->]]. auto.
        * intros i [<-|Hi].
          -- exists acc. rewrite A4 by auto. rewrite eget_set, edge_eqb_refl. split; [reflexivity|]. split; [auto|]. intros p. rewrite O1. split.
             ++ intros [H|(e & b & H1 & H2 & H3)]; [now apply on_BK in H|]. destruct (Es e H1) as [j ->]. exists j, b. split; [apply Mem; auto|auto].
             ++ intros (x & bx & H1 & H2 & H3). apply Mem in H1 as [[_ H1]|H1]; [|now apply Nm in H1]. right. eauto.
          -- destruct (A3 i Hi) as (b & B1 & B2 & B3). exists b. split; [auto|]. split; [auto|]. assert (Hic : i <> c) by congruence.
             intros p. rewrite B3. split; intros (x & bx & H1 & H2 & H3); exists x, bx.
             ++ split; [apply Mem; auto|]. split; [|auto]. rewrite <- H2. symmetry. now apply Same.
             ++ apply Mem in H1 as [[H1 _]|H1]; [congruence|]. split; [auto|]. split; [|auto]. rewrite <- H2. now apply Same.
        * intros i Hi. cbn [map fst In] in Hi. rewrite A4 by tauto. apply Same. intros ->. tauto.
  Qed.

  Lemma find_sorted (f : node -> bool) l x : StronglySorted (fun a b => prio_ge a b = true) l -> find f l = Some x ->
    forall y, In y l -> f y = true -> nprio y <= nprio x.
  Proof.
    induction 1 as [|z l S0 IH F]; cbn [find]; [discriminate|]. destruct (f z) eqn:E.
    - intros [= <-] y [<-|Hy] _; [lia|]. rewrite Forall_forall in F. specialize (F y Hy). unfold prio_ge in F. lia.
    - intros H y [<-|Hy] Fy; [congruence|auto].
  Qed.
  Lemma nodes_of_ok ns l : NoDup (map nid ns) -> (forall i, In i l -> In i (map nid ns)) ->
    exists P, nodes_of ns l = Ok P /\ map nid P = l /\ incl P ns.
  Proof.
    intros ND. unfold nodes_of.
    assert (G : forall l acc, (forall i, In i l -> In i (map nid ns)) -> exists P, rfold (fun acc i => do x <- node_of ns i; Ok (acc ++ [x])) l acc = Ok (acc ++ P) /\ map nid P = l /\ incl P ns).
    { clear l. induction l as [|i l IH]; intros acc H; cbn [rfold].
      - exists []. rewrite app_nil_r. split; [auto|]. split; [auto|]. intros x [].
      - assert (Hi := H i (or_introl eq_refl)). apply in_map_iff in Hi as (n & <- & Hn). rewrite (node_of_ok ns ND n Hn). cbn [rbind].
        destruct (IH (acc ++ [n])) as (P & E & M & I0); [intros i Hi; apply H; now right|]. exists (n :: P). rewrite E, <- app_assoc. split; [reflexivity|].
        split; [cbn [map]; now rewrite M|]. intros x [<-|Hx]; auto. }
    intros H. destruct (G l [] H) as (P & E & R). exists P. auto.
  Qed.
  Lemma record_nodup R l : forall s, pnodup (snd s) -> pnodup (snd (fold_left (record_bdd R) l s)).
  Proof. induction l as [|[j b] l IH]; intros s H; cbn [fold_left]; [exact H|]. apply IH. cbn [record_bdd snd fst]. now apply padd_nodup. Qed.

  Section Insert.
    Context (ns L : list node) (d : list (edge * add)) (pte : ptable) (new D : node).
    Context (ns_nd : NoDup (map nid ns)) (L_ns : incl L ns) (ns_ok : Forall (node_ok one) ns) (new_ns : In new ns) (new_L : ~ In new L)
            (ns_tb : forall x y, In x ns -> In y ns -> ntable x = ntable y)
            (Ex : exact L d pte) (Sep : sep (new :: L)) (HD : In D L) (D_all : forall p, on (nbdd D) p)
            (D_low : forall x, In x (new :: L) -> x <> D -> nprio D < nprio x).

    Lemma same_node x y : In x (new :: L) -> In y (new :: L) -> nid x = nid y -> x = y.
    Proof. intros Hx Hy. apply (NoDup_map_eq nid ns ns_nd); [destruct Hx as [<-|Hx]|destruct Hy as [<-|Hy]]; auto. Qed.
    Lemma new_above : nprio D < nprio new.
    Proof. apply D_low; [now left|]. intros ->. contradiction. Qed.

    Lemma insert_runs : forall r, exists d' pte', dep_dag_insert SHIFT one ord ns (nid D) new (d, pte) r = (r, Ok (d', pte')) /\ exact (new :: L) d' pte'.
    Proof.
      intros r. assert (NA := new_above).
      assert (F := ns_ok). rewrite Forall_forall in F. destruct (F new new_ns) as [Mnew _].
      destruct (find_ok ns L d pte new ns_nd L_ns ns_ok new_ns Ex (S (List.length ns)) (nid D) ([], [nid D])) as ([aff pp] & E1 & (ext & X1 & X2 & X3 & X4 & X5 & X6 & X7)).
      { split; [cbn; repeat constructor; auto|]. split; [cbn [snd]; intros c [<-|[]]; apply in_map, L_ns, HD|]. split; [now left|]. split.
        - split; [constructor|]. intros c es [].
        - intros c x (es & [] & _). }
      { cbn [snd List.length]. lia. }
      cbn [fst snd] in *.
      assert (Am : forall c x, amem aff c x <-> In x pp /\ In c (pget pte x) /\ hi L d new c x).
      { intros c x. rewrite X7, X1. cbn [app In]. split.
        - intros [(es & [] & _)|[(-> & H1 & H2)|(H1 & H2 & H3)]]; auto.
        - intros ([<-|H1] & H2 & H3); auto. }
      assert (Cl : forall x c, In x pp -> In c (pget pte x) -> cand L new c -> In c pp).
      { intros x c Hx Hc Hcand. rewrite X1 in Hx. destruct Hx as [<-|Hx]; [auto|eauto]. }
      assert (Pl : forall x, In x pp -> exists n, In n L /\ nid n = x /\ nprio n < nprio new).
      { intros x Hx. rewrite X1 in Hx. destruct Hx as [<-|Hx]; [exists D; auto|]. destruct (X3 x Hx) as (n & H1 & H2 & H3 & _). eauto. }
      assert (Edge : forall c x p, fallsN L c x p -> exists b, eget d (c, x) = Some b /\ In c (pget pte x) /\ mask one b /\ forall q, on b q <-> fallsN L c x q).
      { intros c x p H. destruct (ex_complete _ _ _ Ex c x p H) as [b Eb]. exists b. split; [auto|]. split; [apply (ex_sync _ _ _ Ex); congruence|].
        destruct (ex_sound _ _ _ Ex _ _ _ Eb) as (M & _ & O). auto. }
      assert (Below : forall n p, In n L -> nprio n < nprio new -> on (nbdd n) p -> on (nbdd new) p -> In (nid n) pp).
      { intros n p. remember (Z.to_nat (nprio n - nprio D)) as k eqn:Ek. revert n Ek. induction k as [k IH] using lt_wf_ind. intros n Ek Hn Ln On Onew.
        destruct (Z.eq_dec (nprio n) (nprio D)) as [Eq|Ne].
        - assert (n = D) as -> by (apply (Sep n D p); auto; now right). rewrite X1. now left.
        - assert (Ln' : nprio D < nprio n) by (apply D_low; [now right|congruence]).
          destruct (falls_next L n D p Hn On HD Ln' (D_all p)) as (S0 & HS & LS & OS & Fa).
          destruct (Edge _ _ _ Fa) as (b & Eb & Pb & _). apply (Cl (nid S0)); [|exact Pb|exists n; eauto 8].
          assert (nprio D <= nprio S0). { destruct (Z.eq_dec (nprio S0) (nprio D)); [lia|]. assert (nprio D < nprio S0); [|lia]. apply D_low; [now right|congruence]. }
          apply (IH (Z.to_nat (nprio S0 - nprio D))) with (n := S0); auto; lia. }
      (* the rule that takes over between a higher rule and the new one *)
      assert (Aff : forall R S0 p, In R L -> In S0 L -> fallsN L (nid R) (nid S0) p -> nprio new < nprio R -> nprio S0 < nprio new -> on (nbdd S0) p -> on (nbdd new) p -> amem aff (nid R) (nid S0)).
      { intros R S0 p HR HS Fa L1 L2 OS On. destruct (Edge _ _ _ Fa) as (b & Eb & Pb & Mb & Ob). apply Am. split; [eapply Below; eauto|]. split; [auto|].
        exists R, b. split; [auto|]. split; [auto|]. split; [auto|]. split; [auto|]. exists p. split; [now apply Ob|auto]. }
      assert (Affk : forall c, In c (map fst aff) <-> exists x, amem aff c x).
      { intros c. split.
        - intros H. apply in_map_iff in H as ([c' es] & <- & H). cbn [fst]. destruct (proj2 X4 c' es H) as (N1 & _ & N3). destruct es as [|[a x] es]; [congruence|].
          exists x, ((a, x) :: es). assert (a = c') by exact (N3 (a, x) (or_introl eq_refl)). subst a. split; [auto|now left].
        - intros (x & es & H & _). apply (in_map fst) in H. exact H. }
      assert (NidL : forall n, In n L -> nid n <> nid new). { intros n Hn X. apply new_L. assert (n = new); [|congruence]. apply same_node; [now right|now left|auto]. }
      destruct (process_ok new aff Mnew d pte X4 (ex_keys _ _ _ Ex) (ex_sync _ _ _ Ex) (ex_pn _ _ _ Ex)) as (d1 & pte1 & E2 & N1 & S1 & P1 & A1 & A2 & A3 & A4).
      { intros c x H. apply Am in H as (H1 & H2 & H3). destruct (Pl x H1) as (n & Hn & <- & _). split; [auto|].
        destruct (child_node L d pte Ex c (nid n) H2) as (m & b & _ & _ & Eb & Mb). eauto. }
      assert (NoRow : forall j, eget d1 (nid new, j) = None).
      { assert (Nd : forall j, eget d (nid new, j) = None).
        { intros j. destruct (eget d (nid new, j)) as [b|] eqn:E; [|auto]. exfalso. destruct (ex_sound _ _ _ Ex _ _ _ E) as (_ & (p & Hp) & O). apply O in Hp as (R & S0 & HR & _ & Q & _). now apply (NidL R HR). }
        assert (Na : forall j, ~ amem aff (nid new) j).
        { intros j H. apply Am in H as (_ & _ & (n & b & Hn & Q & _)). now apply (NidL n Hn). }
        intros j. destruct (Nat.eq_dec j (nid new)) as [->|Nj].
        - rewrite A4; [apply Nd|]. intros X. apply Affk in X as (x & X). now apply Na in X.
        - rewrite A2; auto. }
      (* the new rule's parents *)
      destruct (nodes_of_ok ns (ord pp) ns_nd) as (P & E3 & MP & IP).
      { intros i Hi. apply (Permutation_in _ (ord_perm _)) in Hi. destruct (Pl i Hi) as (n & Hn & <- & _). apply in_map, L_ns, Hn. }
      assert (InP : forall n, In n P <-> In n L /\ In (nid n) pp).
      { intros n. split.
        - intros H. assert (Q : In (nid n) pp) by (apply (Permutation_in _ (ord_perm _)); rewrite <- MP; now apply in_map). split; [|auto].
          destruct (Pl _ Q) as (m & Hm & Em & _). assert (m = n); [|congruence]. apply (NoDup_map_eq nid ns ns_nd); auto.
        - intros [H1 H2]. apply (Permutation_in _ (Permutation_sym (ord_perm _))) in H2. rewrite <- MP in H2. apply in_map_iff in H2 as (m & Em & Hm).
          assert (m = n); [|congruence]. apply (NoDup_map_eq nid ns ns_nd); auto. }
      assert (NDP : NoDup (map nid P)). { rewrite MP. apply (Permutation_NoDup (Permutation_sym (ord_perm _))). exact X2. }
      assert (PermS := sort_by_perm prio_ge P).
      assert (NDs : NoDup (map nid (sort_by prio_ge P))) by (apply (Permutation_NoDup (Permutation_map nid (Permutation_sym PermS))); exact NDP).
      assert (Fs : Forall (node_ok one) (sort_by prio_ge P)).
      { apply Forall_forall. intros x Hx. apply F, IP. now apply (Permutation_in _ PermS). }
      assert (Ss := sort_by_sorted prio_ge prio_ge_total prio_ge_trans P).
      assert (Hit : forall p j, on (nbdd new) p -> ((exists n, nid n = j /\ hit (sort_by prio_ge P) p = Some n) <-> fallsN (new :: L) (nid new) j p)).
      { intros p j On. split.
        - intros (n & <- & Hn). assert (Hn' := Hn). unfold hit in Hn. apply find_some in Hn as [Hn Bn]. apply (Permutation_in _ PermS) in Hn. apply InP in Hn as [Hn Qn].
          apply onb_on in Bn. destruct (Pl _ Qn) as (m & Hm & Em & Lm). assert (m = n) as -> by (apply same_node; auto; now right).
          exists new, n. split; [now left|]. split; [now right|]. repeat split; auto.
          intros T [<-|HT] LT OT; [lia|]. apply (find_sorted (onb p) _ n Ss Hn'); [|now apply onb_on].
          apply (Permutation_in _ (Permutation_sym PermS)). apply InP. split; [auto|]. eapply Below; eauto.
        - intros (R & S0 & HR & HS & ER & ES & Lt & OR & OS & Mx). assert (R = new) as -> by (apply same_node; auto; now left).
          destruct HS as [<-|HS]; [lia|].
          assert (InS : In S0 (sort_by prio_ge P)). { apply (Permutation_in _ (Permutation_sym PermS)). apply InP. split; [auto|]. eapply Below; eauto. }
          destruct (find (onb p) (sort_by prio_ge P)) as [n|] eqn:En.
          + exists n. split; [|exact En]. rewrite <- ES. f_equal. assert (X := find_sorted (onb p) _ n Ss En S0 InS (proj2 (onb_on p S0) OS)).
            apply find_some in En as [Hn Bn]. apply (Permutation_in _ PermS) in Hn. apply InP in Hn as [Hn Qn]. apply onb_on in Bn.
            destruct (Pl _ Qn) as (m & Hm & Em & Lm). assert (m = n) as -> by (apply same_node; auto; now right).
            assert (Y := Mx n (or_intror Hn) Lm Bn). apply (Sep n S0 p); auto; [now right|now right|lia].
          + exfalso. apply find_none with (x := S0) in En; [|auto]. apply onb_on in OS. congruence. }
      destruct (parents_bdd_spec one one_nz _ (nbdd new) Mnew Fs NDs) as [B1 B2].
      assert (NDl := parents_bdd_nodup (sort_by prio_ge P) (nbdd new) NDs).
      set (l := parents_bdd (nbdd new) (sort_by prio_ge P)) in *.
      destruct (record_fold (nid new) l (d1, pte1) NDl N1) as (C1 & C2 & C3).
      assert (C4 := record_nodup (nid new) l (d1, pte1) P1). cbn [fst snd] in C1, C2, C3, C4.
      set (s2 := fold_left (record_bdd (nid new)) l (d1, pte1)) in *.
      exists (fst s2), (snd s2). split.
      { unfold dep_dag_insert. unfold sbind, slift. cbn [fst snd]. rewrite E1, E2, E3.
        unfold add_parents_bdd, start_bdd. assert (Hst : same_table new P = true).
        { assert (DP : In D P) by (apply InP; split; [auto|]; rewrite X1; now left). destruct P as [|x P']; [destruct DP|]. cbn [same_table].
          apply Z.eqb_eq. apply ns_tb; [auto|]. apply IP. now left. }
        rewrite Hst. unfold sbind, sret. fold l. fold s2. now destruct s2. }
      assert (Row : forall i j b, eget (fst s2) (i, j) = Some b <-> (i = nid new /\ In (j, b) l) \/ (i <> nid new /\ eget d1 (i, j) = Some b)).
      { intros i j b. rewrite C2. split.
        - intros [H|[H1 H2]]; [auto|]. right. split; [|auto]. intros ->. rewrite NoRow in H1. discriminate.
        - intros [H|[H1 H2]]; [auto|]. right. split; [auto|]. intros [X _]. contradiction. }
      (* what happens to the dependencies of the other rules *)
      assert (Other : forall R S0 p, In R L -> In S0 L -> (fallsN (new :: L) (nid R) (nid S0) p <-> fallsN L (nid R) (nid S0) p /\ ~ (on (nbdd new) p /\ nprio S0 < nprio new < nprio R))).
      { intros R S0 p HR HS. split.
        - intros (R' & S' & HR' & HS' & E1' & E2' & Lt & OR & OS & Mx). apply same_node in E1'; [|auto|now right]. apply same_node in E2'; [|auto|now right]. subst R' S'. split.
          + exists R, S0. repeat split; auto. intros T HT. apply Mx. now right.
          + intros [On [L1 L2]]. specialize (Mx new (or_introl eq_refl) L2 On). lia.
        - intros [(R' & S' & HR' & HS' & E1' & E2' & Lt & OR & OS & Mx) Nb]. apply same_node in E1'; [|now right|now right]. apply same_node in E2'; [|now right|now right]. subst R' S'.
          exists R, S0. split; [now right|]. split; [now right|]. repeat split; auto. intros T [<-|HT] LT OT; [|auto].
          destruct (Z_lt_le_dec (nprio S0) (nprio new)); [|auto]. exfalso. apply Nb. auto. }
      assert (Into : forall i p, fallsN (new :: L) i (nid new) p <-> exists x bx, amem aff i x /\ eget d (i, x) = Some bx /\ on bx p /\ on (nbdd new) p).
      { intros i p. split.
        - intros (R & S' & HR & HS & <- & E2' & Lt & OR & OS & Mx). apply same_node in E2'; [|auto|now left]. subst S'. destruct HR as [<-|HR]; [lia|].
          destruct (falls_next L R D p HR OR HD ltac:(lia) (D_all p)) as (S0 & HS0 & LS & OS0 & Fa). exists (nid S0).
          assert (LS2 : nprio S0 < nprio new).
          { assert (X := Mx S0 (or_intror HS0) LS OS0). destruct (Z.eq_dec (nprio S0) (nprio new)) as [Eq|]; [|lia]. exfalso. apply new_L.
            assert (S0 = new); [|congruence]. apply (Sep S0 new p); auto; now right. }
          destruct (Edge _ _ _ Fa) as (b & Eb & Pb & Mb & Ob). exists b. split; [eapply Aff; eauto|]. split; [auto|]. split; [now apply Ob|auto].
        - intros (x & bx & H1 & H2 & H3 & H4). assert (H1' := H1). apply Am in H1 as (Q1 & Q2 & (R & b' & HR & <- & LR & _)). destruct (Pl x Q1) as (S0 & HS0 & <- & LS).
          destruct (ex_sound _ _ _ Ex _ _ _ H2) as (_ & _ & O). apply O in H3 as (R' & S' & HR' & HS' & E1' & E2' & Lt & OR & OS & Mx).
          apply same_node in E1'; [|now right|now right]. apply same_node in E2'; [|now right|now right]. subst R' S'.
          exists R, new. split; [now right|]. split; [now left|]. repeat split; auto. intros T [<-|HT] LT OT; [lia|]. specialize (Mx T HT LT OT). lia. }
      constructor.
      - exact C1.
      - intros i j b H. apply Row in H as [[-> H]|[Ni H]].
        + destruct (B1 j b H) as (M & Ne & O). split; [auto|]. split; [auto|]. intros p. rewrite O. split.
          * intros [H1 H2]. now apply Hit.
          * intros H1. assert (On : on (nbdd new) p). { destruct H1 as (R & S' & HR & _ & E1' & _ & _ & OR & _). apply same_node in E1'; [|auto|now left]. congruence. }
            split; [auto|]. now apply Hit.
        + destruct (Nat.eq_dec j (nid new)) as [->|Nj].
          * destruct (in_dec Nat.eq_dec i (map fst aff)) as [Hi|Hi].
            -- destruct (A3 i Hi) as (b' & Q1 & Q2 & Q3). assert (b' = b) by congruence. subst b'. split; [auto|]. split.
               ++ apply Affk in Hi as (x & Hx). assert (Hx' := Hx). apply Am in Hx as (_ & _ & (n & bx & _ & _ & _ & Eb & p & O1 & O2)). exists p. apply Q3. eauto 6.
               ++ intros p. now rewrite Q3, Into.
            -- exfalso. rewrite A4 in H by auto. destruct (ex_sound _ _ _ Ex _ _ _ H) as (_ & (p & Hp) & O). apply O in Hp as (R & S0 & _ & HS & _ & Q & _). now apply (NidL S0 HS).
          * assert (Old : exists b0, eget d (i, j) = Some b0).
            { destruct (eget d (i, j)) as [b0|] eqn:Eb0; [eauto|]. exfalso. rewrite A2 in H; [congruence|auto|]. intros X. apply Am in X as (_ & X & _). apply (ex_sync _ _ _ Ex) in X. congruence. }
            destruct Old as [b0 Eb0]. destruct (ex_sound _ _ _ Ex _ _ _ Eb0) as (M0 & (p0 & Hp0) & O0).
            assert (X := proj1 (O0 p0) Hp0). destruct X as (R & S0 & HR & HS & <- & <- & Lt & OR0 & OS0 & Mx0).
            destruct (mask_sub one one_nz b0 (nbdd new) M0 Mnew) as [Ms Os].
            assert (Dec : amem aff (nid R) (nid S0) \/ ~ amem aff (nid R) (nid S0)).
            { destruct (existsb (fun ce => existsb (fun e => edge_eqb e (nid R, nid S0)) (snd ce) && Nat.eqb (fst ce) (nid R)) aff) eqn:Xb.
              - left. apply existsb_exists in Xb as ([c es] & Hc & Q). apply andb_true_iff in Q as [Q1 Q2]. cbn [fst snd] in *. apply Nat.eqb_eq in Q2. subst c.
                apply existsb_exists in Q1 as (e & He & Q1). destruct (edge_eqb_spec e (nid R, nid S0)) as [->|]; [|discriminate]. exists es. auto.
              - right. intros (es & H1 & H2). assert (Y : existsb (fun ce => existsb (fun e => edge_eqb e (nid R, nid S0)) (snd ce) && Nat.eqb (fst ce) (nid R)) aff = true); [|congruence].
                apply existsb_exists. exists (nid R, es). split; [auto|]. cbn [fst snd]. apply andb_true_iff. split; [|apply Nat.eqb_refl].
                apply existsb_exists. exists (nid R, nid S0). split; [auto|apply edge_eqb_refl]. }
            destruct Dec as [Am1|Am1].
            -- rewrite A1 in H by auto. rewrite Eb0 in H. cbn [shrink] in H. destruct (cudd_bool (bsub b0 (nbdd new))) eqn:Cb; [|discriminate]. injection H as <-.
               split; [auto|]. split; [now apply (cudd_bool_on _ (proj1 Ms))|]. intros p. rewrite Os, O0, Other by auto.
               assert (Q := Am1). apply Am in Q as (Q1 & _ & (n & b' & Hn & En & Ln & _)). apply same_node in En; [|now right|now right]. subst n.
               destruct (Pl _ Q1) as (m & Hm & Em & Lm). apply same_node in Em; [|now right|now right]. subst m. tauto.
            -- rewrite A2 in H by auto. assert (b0 = b) by congruence. subst b0. split; [auto|]. split; [eauto|]. intros p. rewrite O0, Other by auto. split; [|tauto].
               intros Fa. split; [auto|]. intros [On [L1 L2]]. apply Am1. eapply Aff; eauto.
               destruct Fa as (R' & S' & _ & HS' & _ & E2' & _ & _ & OS' & _). apply same_node in E2'; [|now right|now right]. congruence.
      - intros i j p Fa. assert (Fa' := Fa). destruct Fa' as (R & S0 & HR & HS & <- & <- & Lt & OR & OS & Mx).
        destruct HR as [<-|HR].
        + assert (H := proj2 (Hit p (nid S0) OR) Fa). destruct H as (n & En & Hn). destruct (B2 p n OR Hn) as [b Hb]. rewrite En in Hb. exists b. apply Row. auto.
        + assert (NR := NidL R HR). destruct HS as [<-|HS].
          * assert (H := proj1 (Into _ _) Fa). destruct H as (x & bx & H1 & _). destruct (A3 (nid R)) as (b & Eb & _); [apply Affk; eauto|]. exists b. apply Row. auto.
          * assert (NS := NidL S0 HS). assert (Q := proj1 (Other R S0 p HR HS) Fa). destruct Q as [Fa1 Nb].
            destruct (Edge _ _ _ Fa1) as (b & Eb & _ & Mb & Ob). destruct (mask_sub one one_nz b (nbdd new) Mb Mnew) as [Ms Os].
            destruct (eget d1 (nid R, nid S0)) as [b1|] eqn:E1'; [exists b1; apply Row; auto|]. exfalso.
            assert (Am1 : amem aff (nid R) (nid S0) -> False).
            { intros Am1. rewrite A1 in E1' by auto. rewrite Eb in E1'. cbn [shrink] in E1'. destruct (cudd_bool (bsub b (nbdd new))) eqn:Cb; [discriminate|].
              apply (cudd_bool_off _ (proj1 Ms)) with (p := p) in Cb. apply Cb, Os. split; [now apply Ob|]. intros On. apply Nb. split; [auto|].
              apply Am in Am1 as (Q1 & _ & (n & b' & Hn & En & Ln & _)). apply same_node in En; [|now right|now right]. subst n.
              destruct (Pl _ Q1) as (m & Hm & Em & Lm). apply same_node in Em; [|now right|now right]. subst m. lia. }
            rewrite A2 in E1' by auto. congruence.
      - intros c j. rewrite C3. cbn [snd]. rewrite (S1 c j). split.
        + intros [[-> H]|H].
          * apply in_map_iff in H as ([j' b] & <- & H). cbn [fst]. assert (X : eget (fst s2) (nid new, j') = Some b) by (apply Row; auto). congruence.
          * destruct (eget d1 (c, j)) as [b|] eqn:E; [|congruence]. assert (X : eget (fst s2) (c, j) = Some b); [|congruence]. apply Row. right. split; [|auto].
            intros ->. rewrite NoRow in E. discriminate.
        + intros H. destruct (eget (fst s2) (c, j)) as [b|] eqn:E; [|congruence]. apply Row in E as [[-> E]|[_ E]]; [left|right; congruence].
          split; [auto|]. apply (in_map fst) in E. exact E.
      - exact C4.
    Qed.
  End Insert.

  (** ** build_table_deps_incremental *)
  Lemma exact_ext L L' d pte : (forall n, In n L <-> In n L') -> exact L d pte -> exact L' d pte.
  Proof.
    intros H Ex. assert (F : forall i j p, fallsN L i j p <-> fallsN L' i j p).
    { intros i j p. split; intros (R & S0 & HR & HS & E1 & E2 & Lt & OR & OS & Mx); exists R, S0; repeat split; auto; try (now apply H); intros T HT; apply Mx; now apply H. }
    constructor; try apply Ex.
    - intros i j b E. destruct (ex_sound _ _ _ Ex _ _ _ E) as (M & Ne & O). split; [auto|]. split; [auto|]. intros p. now rewrite O, F.
    - intros i j p Fa. apply F in Fa. exact (ex_complete _ _ _ Ex _ _ _ Fa).
  Qed.
  Section Build.
    Context (ns : list node) (D : node).
    Context (ns_nd : NoDup (map nid ns)) (ns_ok : Forall (node_ok one) ns) (ns_tb : forall x y, In x ns -> In y ns -> ntable x = ntable y)
            (Sep : sep ns) (HD : In D ns) (D_all : forall p, on (nbdd D) p) (D_low : forall x, In x ns -> x <> D -> nprio D < nprio x).
    Lemma build_loop : forall todo L d pte r, NoDup todo -> (forall i, In i todo -> In i (map nid ns) /\ ~ In i (map nid L)) -> incl L ns -> In D L -> exact L d pte ->
      exists L' d' pte', sfold (fun s i => sdo new <- slift (node_of ns i); dep_dag_insert SHIFT one ord ns (nid D) new s) todo (d, pte) r = (r, Ok (d', pte')) /\
        exact L' d' pte' /\ forall n, In n L' <-> In n L \/ (In n ns /\ In (nid n) todo).
    Proof.
      induction todo as [|i todo IH]; intros L d pte r ND Ht HL HDL Ex; cbn [sfold].
      - exists L, d, pte. split; [reflexivity|]. split; [auto|]. intros n. split; [auto|]. intros [H|[_ []]]. exact H.
      - inversion ND as [|? ? Hi ND']; subst. destruct (Ht i (or_introl eq_refl)) as [Hin Hn]. apply in_map_iff in Hin as (new & <- & Hnew).
        destruct (insert_runs ns L d pte new D) with (r := r) as (d1 & pte1 & E1 & Ex1); auto.
        { intros X. apply Hn. now apply in_map. }
        { intros R S0 p HR HS. apply Sep; [destruct HR as [<-|HR]|destruct HS as [<-|HS]]; auto. }
        { intros x [<-|Hx] Nx; auto. }
        destruct (IH (new :: L) d1 pte1 r) as (L' & d' & pte' & E' & Ex' & In'); auto.
        { intros k Hk. destruct (Ht k (or_intror Hk)) as [A B]. split; [auto|]. cbn [map]. intros [X|X]; [congruence|auto]. }
        { intros x [<-|Hx]; auto. } { now right. }
        exists L', d', pte'. split.
        + unfold sbind at 1. unfold slift at 1. unfold sbind at 1. rewrite (node_of_ok ns ns_nd new Hnew). rewrite E1. exact E'.
        + split; [auto|]. intros n. rewrite In'. cbn [In]. split.
          * intros [[<-|H]|[H1 H2]]; auto.
          * intros [H|[H1 [H2|H2]]]; auto. left. left. apply (NoDup_map_eq nid ns ns_nd); auto.
    Qed.
  End Build.

  Lemma split_ok w0 k l : match_wc match_new = Ok w0 -> (forall x, In x l -> exists w, rule_wc (snd x) = Ok w /\ (w =? w0) = Nat.eqb (fst x) k) -> forall d rest,
    split_default l d rest = Ok (if existsb (fun x => Nat.eqb (fst x) k) l then Some k else d, rest ++ map fst (filter (fun x => negb (Nat.eqb (fst x) k)) l)).
  Proof.
    intros E0. induction l as [|x l IH]; intros H d rest; cbn [split_default existsb filter].
    - cbn [map]. now rewrite app_nil_r.
    - destruct (H x (or_introl eq_refl)) as (w & Ew & Q). rewrite Ew, E0. cbn [rbind]. rewrite Q.
      destruct (Nat.eqb_spec (fst x) k) as [E|N]; cbn [negb orb]; rewrite IH by (intros y Hy; apply H; now right).
      + rewrite E. destruct (existsb _ l); reflexivity.
      + cbn [map]. rewrite <- app_assoc. reflexivity.
  Qed.
  Lemma lift_bind {A B} (a : A) (f : A -> st B) r : sbind (slift (Ok a)) f r = f a r.
  Proof. reflexivity. Qed.
  Lemma bind_run {A B} (c : st A) (f : A -> st B) r r' a : c r = (r', Ok a) -> sbind c f r = f a r'.
  Proof. unfold sbind. now intros ->. Qed.
  Lemma inc_runs r objs k D : plain_table r objs -> In (k, D) objs -> match_all D ->
    (forall i T, In (i, T) objs -> i <> k -> priority (rcore D) < priority (rcore T) /\ ~ match_all T) ->
    (forall i j R S p, In (i, R) objs -> In (j, S) objs -> priority (rcore R) = priority (rcore S) -> rule_accepts R p -> rule_accepts S p -> i = j) ->
    forall reg, exists d, table_deps_incremental SHIFT one ord objs reg = (reg, Ok d) /\ NoDup (map fst d) /\
      (forall i j b, In ((i, j), b) d -> mask one b /\ (exists p, on b p) /\ forall p, on b p <-> fallsO objs i j p) /\
      (forall i j p, fallsO objs i j p -> exists b, In ((i, j), b) d).
  Proof.
    intros (Hne & Hso & Hm & HT) HD Dall Dlow Hsep reg. unfold table_deps_incremental.
    set (l := sort_by prio_le_obj objs). assert (PL : Permutation l objs) by apply sort_by_perm.
    assert (NDo : NoDup (map fst objs)).
    { clear - Hso. induction Hso as [|x l S0 IH F]; cbn [map]; constructor; auto. intros X. apply in_map_iff in X as (y & E & Hy). rewrite Forall_forall in F. specialize (F y Hy). lia. }
    assert (NDl : NoDup (map fst l)) by (apply (Permutation_NoDup (Permutation_map fst (Permutation_sym PL))); exact NDo).
    destruct (match_wc_ok r match_new (match_new_ok r)) as (w0 & E0 & W0 & _ & A0).
    assert (All0 : forall p, accepts w0 p) by (intros p; apply A0; intros it []).
    assert (Spl := split_ok w0 k l E0). rewrite Spl.
    2:{ intros [i T] Hx. cbn [fst snd]. apply (Permutation_in _ PL) in Hx. destruct (match_wc_ok r _ (Hm _ Hx)) as (w & E & W & _ & A). cbn [snd] in E, A.
        exists w. split; [exact E|]. destruct (Nat.eqb_spec i k) as [->|N].
        - apply Z.eqb_eq. apply wc_canonical; auto. intros p. split; [auto|]. intros _. apply A.
          assert (T = D); [|subst T; apply Dall]. assert (X := NoDup_map_eq fst objs NDo (k, T) (k, D) Hx HD eq_refl). congruence.
        - apply Z.eqb_neq. intros ->. apply (proj2 (Dlow i T Hx N)). intros p. apply A, All0. }
    assert (Hex : existsb (fun x => Nat.eqb (fst x) k) l = true).
    { apply existsb_exists. exists (k, D). split; [now apply (Permutation_in _ (Permutation_sym PL))|apply Nat.eqb_refl]. }
    rewrite Hex. cbn [app].
    destruct (attach_all_ok SHIFT one Hs Hs2 one_nz r l) as (ns & En & Mn & F).
    { intros x Hx. apply Hm. now apply (Permutation_in _ PL). }
    assert (Ea : attach SHIFT one l = Ok ns).
    { unfold attach. destruct l as [|x l']; [|exact En]. discriminate Hex. }
    assert (Mid : map nid ns = map fst l) by (rewrite <- Mn, map_map; reflexivity).
    assert (ND : NoDup (map nid ns)) by (rewrite Mid; exact NDl).
    assert (InO : forall n, In n ns -> In (nid n, nrule n) objs). { intros n Hn. apply (Permutation_in _ PL). rewrite <- Mn. now apply node_in_obj. }
    assert (OIn : forall i T, In (i, T) objs -> exists n, In n ns /\ nid n = i /\ nrule n = T).
    { intros i T H. apply (Permutation_in _ (Permutation_sym PL)) in H. rewrite <- Mn in H. apply in_map_iff in H as (n & [= <- <-] & Hn). eauto. }
    destruct (OIn k D HD) as (nD & HnD & EkD & ErD). rewrite Forall_forall in F.
    assert (Sepn : sep ns). { intros R S0 p HR HS Eq OR OS. apply (NoDup_map_eq nid ns ND); auto. apply (Hsep (nid R) (nid S0) (nrule R) (nrule S0) p); auto; [now apply (F R HR)|now apply (F S0 HS)]. }
    assert (FO : forall i j p, fallsN ns i j p <-> fallsO objs i j p).
    { intros i j p. split.
      - intros (R & S0 & HR & HS & <- & <- & Lt & OR & OS & Mx). exists (nrule R), (nrule S0). split; [auto|]. split; [auto|]. split; [auto|].
        split; [now apply (F R HR)|]. split; [now apply (F S0 HS)|]. intros a T HTa LT AT. destruct (OIn a T HTa) as (n & Hn & <- & <-).
        assert (On : on (nbdd n) p) by (now apply (F n Hn)). specialize (Mx n Hn LT On). destruct (Z.eq_dec (nprio n) (nprio S0)) as [Eq|]; [|lia].
        right. assert (n = S0) as -> by (apply (Sepn n S0 p); auto). auto.
      - intros (R & S0 & HR & HS & Lt & AR & AS & Mx). destruct (OIn i R HR) as (nR & HnR & <- & <-). destruct (OIn j S0 HS) as (nS & HnS & <- & <-).
        exists nR, nS. repeat split; auto; [now apply (F nR HnR)|now apply (F nS HnS)|]. intros T HTn LT OT.
        specialize (Mx (nid T) (nrule T) (InO T HTn) LT (proj1 (proj2 (F T HTn) p) OT)). lia. }
    destruct (build_loop ns nD ND) with (todo := map fst (filter (fun x => negb (Nat.eqb (fst x) k)) l)) (L := [nD]) (d := @nil (edge * add)) (pte := @nil (nat * list nat)) (r := reg)
      as (L' & d' & pte' & E' & Ex' & In').
    - rewrite Forall_forall. exact F.
    - intros x y Hx Hy. exact (HT _ _ (InO x Hx) (InO y Hy)).
    - exact Sepn.
    - intros p. apply (F nD HnD). rewrite ErD. apply Dall.
    - intros x Hx Nx. rewrite ErD. apply (Dlow (nid x) (nrule x)); [auto|]. intros X. apply Nx. apply (NoDup_map_eq nid ns ND); congruence.
    - clear - NDl. revert NDl. generalize l. intros m. induction m as [|x m IH]; cbn [filter map]; intros H; [constructor|]. inversion H as [|? ? Hx Hm]; subst.
      destruct (negb (Nat.eqb (fst x) k)); [|auto]. cbn [map]. constructor; [|auto]. intros X. apply Hx. apply in_map_iff in X as (y & E & Hy). apply filter_In in Hy as [Hy _].
      rewrite <- E. now apply in_map.
    - intros i Hi. apply in_map_iff in Hi as (x & <- & Hx). apply filter_In in Hx as [Hx Q]. rewrite negb_true_iff, Nat.eqb_neq in Q. split; [rewrite Mid; now apply in_map|].
      cbn [map]. intros [X|[]]. congruence.
    - intros x [<-|[]]. exact HnD.
    - now left.
    - constructor.
      + constructor. + discriminate.
      + intros i j p (R & S0 & [<-|[]] & [<-|[]] & _ & _ & Lt & _). lia.
      + intros c j. cbn. split; [intros []|congruence].
      + intros j. constructor.
    - assert (Ex2 : exact ns d' pte').
      { eapply exact_ext; [|exact Ex']. intros n. rewrite In'. split.
        - intros [[<-|[]]|[H _]]; auto.
        - intros Hn. destruct (Nat.eq_dec (nid n) k) as [E|N].
          + left. left. apply (NoDup_map_eq nid ns ND); congruence.
          + right. split; [auto|]. apply in_map_iff. exists (nid n, nrule n). split; [reflexivity|]. apply filter_In. split.
            * apply (Permutation_in _ (Permutation_sym PL)). auto.
            * cbn [fst]. apply negb_true_iff. now apply Nat.eqb_neq. }
      exists d'. rewrite EkD in E'. split.
      + rewrite lift_bind. cbv beta iota. rewrite Ea, lift_bind. etransitivity; [apply bind_run; exact E'|reflexivity].
      + split; [apply (ex_keys _ _ _ Ex2)|]. split.
        * intros i j b H. apply (eget_in _ _ _ (ex_keys _ _ _ Ex2)) in H. destruct (ex_sound _ _ _ Ex2 _ _ _ H) as (M & Ne & O). split; [auto|]. split; [auto|].
          intros p. now rewrite O, FO.
        * intros i j p H. apply FO in H. destruct (ex_complete _ _ _ Ex2 _ _ _ H) as [b Eb]. exists b. now apply (eget_in _ _ _ (ex_keys _ _ _ Ex2)).
  Qed.
End Inc.
