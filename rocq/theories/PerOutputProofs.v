(** per_output_actions: what it keeps of an action list. *)
From Verif Require Export RedundantProofs.
Local Open Scope string_scope.
Local Open Scope list_scope.
Local Open Scope Z_scope.

(** ** Specification side: the ports an action list can emit to, and the lists considered *)
Fixpoint ports_val (n : string) (v : aval) {struct v} : list Z :=
  match v with
  | VInt k => match kind n with KOutput => [k] | _ => [] end
  | VGroup _ bs =>
    match kind n with
    | KGroup => (fix go_b (bs : list (list (string * aval))) :=
        match bs with
        | [] => []
        | b :: bs' => (fix go_a (b : list (string * aval)) :=
              match b with [] => [] | (n', v') :: b' => ports_val n' v' ++ go_a b' end) b ++ go_b bs'
        end) bs
    | _ => []
    end
  | _ => []
  end.
Definition ports (l : list action) : list Z := flat_map (fun a => ports_val (fst a) (snd a)) l.
(** No MPLS push, no PBB, and groups that run every bucket. *)
Inductive wf_act : action -> Prop :=
| wf_other n v : n <> "GROUP" -> plain_act (n, v) = true -> wf_act (n, v)
| wf_group t bs : (t = "all" \/ t = "indirect") -> (forall b a, In b bs -> In a b -> wf_act a) -> wf_act ("GROUP", VGroup t bs).

Lemma ports_group t bs : ports_val "GROUP" (VGroup t bs) = flat_map ports bs.
Proof.
  cbn [ports_val]. change (kind "GROUP") with KGroup. cbv iota.
  induction bs as [|b bs IH]; [reflexivity|]. cbn [flat_map]. f_equal; [|exact IH].
  clear IH. induction b as [|[n v] b IH]; [reflexivity|]. unfold ports. cbn [flat_map fst snd]. f_equal. exact IH.
Qed.
Definition bucket_step (acc : list (Z * alist)) (b : list action) : result (list (Z * alist)) :=
  do (d, _) <- po_list b [] al_empty; Ok (po_update acc d).
Lemma po_val_group t bs : po_list_val (VGroup t bs) = rfold bucket_step bs [].
Proof.
  cbn [po_list_val]. match goal with |- ?F bs [] = _ => assert (G : forall acc, F bs acc = rfold bucket_step bs acc); [|apply G] end.
  induction bs as [|b bs IH]; intros acc; [reflexivity|]. cbn [rfold]. unfold bucket_step at 1.
  match goal with |- (do (d, _) <- ?X; _) = _ => assert (E : X = po_list b [] al_empty) end.
  { generalize (@nil (Z * alist)), al_empty. induction b as [|a b IHb]; intros res cur; [reflexivity|]. cbn [po_list].
    destruct (String.eqb (fst a) "OUTPUT").
    - destruct (snd a); try reflexivity; destruct (al_append cur a); cbn [rbind]; auto.
    - destruct (String.eqb (fst a) "GROUP").
      + destruct (po_list_val (snd a)) as [g|]; cbn [rbind]; [|reflexivity].
        match goal with |- rbind ?X _ = rbind ?Y _ => change Y with X; destruct X; cbn [rbind]; auto end.
      + destruct (al_append cur a); cbn [rbind]; auto. }
  rewrite E. destruct (po_list b [] al_empty) as [[d c]|e]; cbn [rbind]; auto.
Qed.

(** ** The dict *)
Definition keys {V} (d : list (Z * V)) : list Z := map fst d.
Lemma po_set_fresh {V} (d : list (Z * V)) k v : ~ In k (keys d) -> Permutation (po_set d k v) ((k, v) :: d).
Proof.
  induction d as [|[k' v'] d IH]; intros H; cbn [po_set]; auto. destruct (k <? k'); auto.
  destruct (Z.eqb_spec k k') as [->|N]; [exfalso; apply H; now left|].
  eapply Permutation_trans; [apply perm_skip, IH|apply perm_swap]. intros X. apply H. now right.
Qed.
Lemma keys_perm {V} (d e : list (Z * V)) : Permutation d e -> Permutation (keys d) (keys e).
Proof. apply Permutation_map. Qed.
Lemma po_update_fresh {V} (e : list (Z * V)) : forall d, (forall k, In k (keys e) -> ~ In k (keys d)) -> NoDup (keys e) ->
  Permutation (po_update d e) (d ++ e).
Proof.
  unfold po_update. induction e as [|[k v] e IH]; intros d Hd Hn; cbn [fold_left fst snd]; [rewrite app_nil_r; auto|].
  inversion Hn as [|? ? N1 N2]; subst. assert (F : ~ In k (keys d)) by (apply Hd; now left).
  pose proof (po_set_fresh d k v F) as P. eapply Permutation_trans; [apply IH; auto|].
  - intros k' Hk' X. apply (Permutation_in k' (keys_perm _ _ P)) in X. destruct X as [<-|X]; [contradiction|].
    apply (Hd k'); auto. now right.
  - eapply Permutation_trans; [apply Permutation_app_tail, P|]. cbn. apply Permutation_middle.
Qed.

Section Sem.
  Context (pick : list (list action) -> nat).
  Notation run_out := (run_out pick).
  Notation emit := (emit pick).
  (** what a port dict emits *)
  Definition sem (d : list (Z * alist)) (p : pkt) : list (Z * pkt) := flat_map (fun kv => run_out (al_iter (snd kv)) p) d.
  Definition plain_entry (v : alist) : Prop := plain_list (al_iter v).
  Definition entries_plain (d : list (Z * alist)) : Prop := Forall (fun kv => plain_entry (snd kv)) d.

  Lemma sem_perm d e p : Permutation d e -> Permutation (sem d p) (sem e p).
  Proof. intros P. unfold sem. now apply Permutation_flat_map. Qed.

  (** trace equivalence keeps the shape *)
  Lemma teq_plain l r : teq l r -> plain_list l -> plain_list r.
  Proof.
    intros T [H1 H2]. split; [|].
    - rewrite forallb_forall in *. intros x Hx. apply H1. now rewrite (ateq_perm _ _ T).
    - clear H1. induction T as [l|l a b r H|]; auto. induction l as [|x l IH]; cbn [app outs_last] in *.
      + destruct (emits (fst a)) eqn:Ea.
        * pose proof (indep_emit a b H Ea) as Eb. rewrite Eb. cbn [forallb] in *. rewrite Ea. now rewrite Eb in H2.
        * destruct (emits (fst b)) eqn:Eb; [|cbn [outs_last]; now rewrite ?Ea].
          pose proof (indep_emit b a (depends_sym_ok _ _ _ H) Eb). congruence.
      + destruct (emits (fst x)); auto. rewrite forallb_app in *. cbn [forallb] in *.
        destruct (emits (fst a)), (emits (fst b)); exact H2.
  Qed.
  Lemma teq_run l r : teq l r -> plain_list l -> same_effect pick l r.
  Proof. intros T [H _]. apply teq_effect; auto. now apply plain_no_pbb. Qed.

  Definition no_emit (l : list action) : Prop := forallb (fun a : action => negb (emits (fst a))) l = true.
  Lemma no_emit_outs l r : no_emit l -> outs_last r = true -> outs_last (l ++ r) = true.
  Proof.
    unfold no_emit. induction l as [|a l IH]; cbn; auto. rewrite andb_true_iff. intros [H1 H2] H.
    apply negb_true_iff in H1. rewrite H1. auto.
  Qed.
  Lemma al_entry cur h xs v : al_ok cur h -> no_emit h -> forallb plain_act h = true -> plain_list xs ->
    al_extend cur xs = Ok v -> plain_entry v /\ forall p, same_outs (run_out (al_iter v) p) (run_out xs (run_pkt h p)).
  Proof.
    intros Hc Hn Hh [Hx1 Hx2] E. pose proof (al_extend_ok xs cur h v Hc E) as Hv. pose proof (al_ok_iter _ _ Hv) as T.
    assert (Hp : plain_list (h ++ xs)).
    { split; [rewrite forallb_app, Hh, Hx1; reflexivity|now apply no_emit_outs]. }
    split; [eapply teq_plain; eauto|]. intros p. destruct (teq_run _ _ T Hp p) as [_ S].
    eapply same_outs_trans; [apply same_outs_sym, S|]. rewrite run_out_app, (run_out_none pick h p Hn). apply same_outs_refl.
  Qed.

  (** *** Groups *)
  Definition good_val (v : aval) : Prop := forall g, wf_act ("GROUP", v) -> NoDup (ports_val "GROUP" v) -> po_list_val v = Ok g ->
    (forall p, same_outs (sem g p) (emit ("GROUP", v) p)) /\ entries_plain g /\ NoDup (keys g) /\
    (forall k, In k (keys g) -> In k (ports_val "GROUP" v)).

  Lemma merge_group cur h g : al_ok cur h -> no_emit h -> forallb plain_act h = true -> entries_plain g -> NoDup (keys g) ->
    forall res res', (forall k, In k (keys g) -> ~ In k (keys res)) ->
    rfold (fun acc kv => do x <- al_add cur (snd kv); Ok (po_set acc (fst kv) x)) g res = Ok res' ->
    (forall p, same_outs (sem res' p) (sem res p ++ sem g (run_pkt h p))) /\
    (entries_plain res -> entries_plain res') /\ Permutation (keys res') (keys res ++ keys g).
  Proof.
    intros Hc Hn Hh. induction g as [|[k v] g IH]; intros Hg Hd res res' Hf E; cbn [rfold] in E.
    - injection E as <-. cbn. rewrite app_nil_r. repeat split; auto. intros p. rewrite app_nil_r. apply same_outs_refl.
    - apply rbind_ok in E as (res1 & E1 & E). apply rbind_ok in E1 as (x & Ex & E1). injection E1 as <-. cbn [fst snd] in *.
      inversion Hg as [|? ? Hv Hg']; subst. inversion Hd as [|? ? Hk Hd']; subst. cbn [snd] in Hv.
      unfold al_add, al_copy in Ex. destruct (al_entry _ _ _ _ Hc Hn Hh Hv Ex) as [Px Sx].
      assert (F : ~ In k (keys res)) by (apply Hf; now left). pose proof (po_set_fresh res k x F) as P.
      destruct (IH Hg' Hd' (po_set res k x) res') as (S & Pl & K); auto.
      { intros k' Hk' X. apply (Permutation_in k' (keys_perm _ _ P)) in X. destruct X as [<-|X]; [contradiction|]. apply (Hf k'); auto. now right. }
      split; [|split].
      + intros p. eapply same_outs_trans; [apply S|]. cbn [sem flat_map snd].
        eapply same_outs_trans; [apply same_outs_app; [apply same_outs_perm, sem_perm, P|apply same_outs_refl]|].
        cbn [sem flat_map snd]. eapply same_outs_trans; [apply same_outs_perm; rewrite <- app_assoc; apply Permutation_app_swap_app|].
        apply same_outs_app; [apply same_outs_refl|]. apply same_outs_app; [apply Sx|apply same_outs_refl].
      + intros Hr. apply Pl. eapply Permutation_Forall; [apply Permutation_sym, P|]. constructor; auto.
      + eapply Permutation_trans; [exact K|]. eapply Permutation_trans; [apply Permutation_app_tail, (keys_perm _ _ P)|].
        cbn. apply Permutation_middle.
  Qed.

  Lemma nodup_app_l {X} (l r : list X) : NoDup (l ++ r) -> NoDup l.
  Proof. induction l; intros H; [constructor|]. inversion H; subst. constructor; auto. intros X1. apply H2. apply in_or_app. now left. Qed.
  Lemma nodup_app_r {X} (l r : list X) : NoDup (l ++ r) -> NoDup r.
  Proof. induction l; intros H; auto. inversion H; subst. auto. Qed.
  Lemma nodup_app_disj {X} (l r : list X) x : NoDup (l ++ r) -> In x l -> In x r -> False.
  Proof.
    induction l as [|y l IH]; intros H Hl Hr; [destruct Hl|]. inversion H; subst. destruct Hl as [->|Hl]; auto.
    apply H2. apply in_or_app. now right.
  Qed.
  Lemma wf_plain a : wf_act a -> plain_act a = true.
  Proof. intros H. inversion H; subst; auto. Qed.

  Lemma po_list_sem b : Forall (fun a => good_val (snd a)) b -> Forall wf_act b -> NoDup (ports b) ->
    forall h cur res d cur', al_ok cur h -> no_emit h -> forallb plain_act h = true ->
    (forall k, In k (ports b) -> ~ In k (keys res)) ->
    po_list b res cur = Ok (d, cur') ->
    (forall p, same_outs (sem d p) (sem res p ++ run_out b (run_pkt h p))) /\
    (entries_plain res -> entries_plain d) /\ (NoDup (keys res) -> NoDup (keys d)) /\
    (forall k, In k (keys d) -> In k (keys res) \/ In k (ports b)).
  Proof.
    induction b as [|a b IH]; intros Hg Hw Hd h cur res d cur' Hc Hn Hh Hf E; cbn [po_list] in E.
    - injection E as <- <-. repeat split; auto. intros p. cbn. rewrite app_nil_r. apply same_outs_refl.
    - inversion Hg as [|? ? Ga Hg']; subst. inversion Hw as [|? ? Wa Hw']; subst.
      unfold ports in Hd, Hf. cbn [flat_map] in Hd, Hf. fold (ports b) in Hd, Hf.
      pose proof (nodup_app_r _ _ Hd) as Hdb. pose proof (wf_plain _ Wa) as Pa.
      destruct (String.eqb_spec (fst a) "OUTPUT") as [Eo|No].
      + destruct a as [n v]. cbn [fst snd] in *. subst n. destruct v as [|port| |]; try discriminate.
        apply rbind_ok in E as (out & Eout & E).
        assert (Ex : al_extend cur [("OUTPUT", VInt port)] = Ok out).
        { unfold al_extend. cbn [rfold]. rewrite Eout. reflexivity. }
        assert (Hpl : plain_list [("OUTPUT", VInt port)]) by (split; reflexivity).
        destruct (al_entry cur h _ out Hc Hn Hh Hpl Ex) as [Po So].
        cbn [ports_val] in Hd, Hf. change (kind "OUTPUT") with KOutput in Hd, Hf. cbv iota in Hd, Hf. cbn [app] in Hd, Hf.
        assert (F : ~ In port (keys res)) by (apply Hf; now left). pose proof (po_set_fresh res port out F) as P.
        destruct (IH Hg' Hw' Hdb h cur (po_set res port out) d cur') as (S & Pl & Nd & K); auto.
        { intros k Hk X. apply (Permutation_in k (keys_perm _ _ P)) in X. destruct X as [<-|X].
          - cbn [fst] in *. inversion Hd; contradiction.
          - apply (Hf k); auto. now right. }
        split; [|split; [|split]].
        * intros p. eapply same_outs_trans; [apply S|].
          eapply same_outs_trans; [apply same_outs_app; [apply same_outs_perm, sem_perm, P|apply same_outs_refl]|].
          cbn [sem flat_map snd SpecExec.run_out]. rewrite <- app_assoc.
          eapply same_outs_trans; [apply same_outs_perm; apply Permutation_app_swap_app|].
          apply same_outs_app; [apply same_outs_refl|]. apply same_outs_app; [|apply same_outs_refl].
          eapply same_outs_trans; [apply So|]. cbn [SpecExec.run_out]. rewrite app_nil_r. apply same_outs_refl.
        * intros Hr. apply Pl. eapply Permutation_Forall; [apply Permutation_sym, P|]. constructor; auto.
        * intros Hr. apply Nd. eapply Permutation_NoDup; [apply Permutation_sym, (keys_perm _ _ P)|]. constructor; auto.
        * intros k Hk. apply K in Hk as [Hk|Hk]; [|right; now right].
          apply (Permutation_in k (keys_perm _ _ P)) in Hk. destruct Hk as [<-|Hk]; [right; now left|now left].
      + destruct (String.eqb_spec (fst a) "GROUP") as [Eg|Ng].
        * destruct a as [n v]. cbn [fst snd] in *. subst n.
          apply rbind_ok in E as (g & Eg & E). apply rbind_ok in E as (res1 & Er & E).
          destruct (Ga g Wa (nodup_app_l _ _ Hd) Eg) as (Sg & Pg & Ng & Kg).
          destruct (merge_group cur h g Hc Hn Hh Pg Ng res res1) as (S1 & P1 & K1); auto.
          { intros k Hk. apply Hf. apply in_or_app. left. auto. }
          destruct (IH Hg' Hw' Hdb h cur res1 d cur') as (S & Pl & Nd & K); auto.
          { intros k Hk X. apply (Permutation_in k K1) in X. apply in_app_or in X as [X|X].
            - apply (Hf k); auto. apply in_or_app. now right.
            - apply Kg in X. eapply nodup_app_disj; eauto. }
          split; [|split; [|split]]; auto.
          -- intros p. eapply same_outs_trans; [apply S|]. cbn [SpecExec.run_out].
             eapply same_outs_trans; [apply same_outs_app; [apply S1|apply same_outs_refl]|]. rewrite <- app_assoc.
             apply same_outs_app; [apply same_outs_refl|]. apply same_outs_app; [apply Sg|]. apply same_outs_refl.
          -- intros Hr. apply Nd. eapply Permutation_NoDup; [apply Permutation_sym, K1|].
             clear - Hr Ng Hf Kg. assert (Hf' : forall k, In k (keys g) -> ~ In k (keys res)) by (intros k Hk; apply Hf, in_or_app; left; auto).
             clear Hf Kg. induction (keys res) as [|x l IHl]; auto. inversion Hr; subst. cbn. constructor.
             ++ intros X. apply in_app_or in X as [X|X]; auto. apply (Hf' x); auto. now left.
             ++ apply IHl; auto. intros k Hk X. apply (Hf' k); auto. now right.
          -- intros k Hk. apply K in Hk as [Hk|Hk].
             ++ apply (Permutation_in k K1) in Hk. apply in_app_or in Hk as [Hk|Hk]; auto. right. apply in_or_app. left. auto.
             ++ right. apply in_or_app. now right.
        * apply rbind_ok in E as (cur1 & Ec & E). pose proof (al_append_ok _ _ _ _ Hc Ec) as Hc1.
          assert (Em : emits (fst a) = false).
          { destruct (emits (fst a)) eqn:Em; auto. apply emits_names in Em as [?|?]; contradiction. }
          assert (Pz : ports_val (fst a) (snd a) = []).
          { destruct a as [n v]. cbn [fst snd] in *. unfold emits in Em. destruct v; cbn [ports_val]; auto; destruct (kind n); auto; discriminate. }
          rewrite Pz in Hd, Hf. cbn [app] in Hd, Hf.
          destruct (IH Hg' Hw' Hdb (h ++ [a]) cur1 res d cur') as (S & Pl & Nd & K); auto.
          { unfold no_emit. rewrite forallb_app. unfold no_emit in Hn. rewrite Hn. cbn. now rewrite Em. }
          { rewrite forallb_app, Hh. cbn. now rewrite Pa. }
          split; [|split; [|split]]; auto.
          -- intros p. eapply same_outs_trans; [apply S|]. rewrite run_pkt_app. cbn [run_pkt SpecExec.run_out].
             rewrite (emit_nil pick a _ Em). apply same_outs_refl.
          -- intros k Hk. apply K in Hk as [Hk|Hk]; auto. right. unfold ports. cbn [flat_map]. rewrite Pz. exact Hk.
  Qed.
  Lemma good_all v : good_val v.
  Proof.
    induction v as [|n|f x|t bs IH] using aval_ind'; intros g Hw Hd E; try discriminate.
    rewrite po_val_group in E. rewrite ports_group in Hd. inversion Hw as [? ? N _|? ? Ht Hb]; subst; [contradiction|].
    assert (G : forall acc g, entries_plain acc -> NoDup (keys acc) -> (forall k, In k (flat_map ports bs) -> ~ In k (keys acc)) ->
      rfold bucket_step bs acc = Ok g ->
      (forall p, same_outs (sem g p) (sem acc p ++ List.concat (map (fun b => run_out b p) bs))) /\ entries_plain g /\ NoDup (keys g) /\
      (forall k, In k (keys g) -> In k (keys acc) \/ In k (flat_map ports bs))).
    { clear g E Hw. induction IH as [|b bs Hbv Hbs IHbs]; intros acc g Pa Na Fa E; cbn [rfold] in E.
      - injection E as <-. repeat split; auto. intros p. cbn. rewrite app_nil_r. apply same_outs_refl.
      - apply rbind_ok in E as (acc1 & E1 & E). unfold bucket_step in E1. apply rbind_ok in E1 as ([d c] & Ed & E1). injection E1 as <-.
        cbn [flat_map] in Hd, Fa.
        destruct (po_list_sem b Hbv) with (h := @nil action) (cur := al_empty) (res := @nil (Z * alist)) (d := d) (cur' := c) as (S & Pl & Nd & K); auto.
        { apply Forall_forall. intros a Ha. apply (Hb b a); auto. now left. }
        { eapply nodup_app_l; eauto. }
        { apply al_empty_ok. }
        { reflexivity. }
        assert (Kd : forall k, In k (keys d) -> In k (ports b)) by (intros k Hk; apply K in Hk as [[]|Hk]; auto).
        assert (Nd' : NoDup (keys d)) by (apply Nd; constructor).
        assert (P : Permutation (po_update acc d) (acc ++ d)).
        { apply po_update_fresh; auto. intros k Hk. apply Fa, in_or_app. left. auto. }
        assert (Pk : Permutation (keys (po_update acc d)) (keys acc ++ keys d)).
        { unfold keys. rewrite <- map_app. now apply Permutation_map. }
        destruct (IHbs (nodup_app_r _ _ Hd)) with (acc := po_update acc d) (g := g) as (S2 & P2 & N2 & K2); auto.
        { intros b' a Hb' Ha. apply (Hb b' a); auto. now right. }
        { eapply Permutation_Forall; [apply Permutation_sym, P|]. apply Forall_app. split; auto. apply Pl. constructor. }
        { eapply Permutation_NoDup; [apply Permutation_sym, Pk|]. clear - Na Nd' Fa Kd.
          assert (Hf' : forall k, In k (keys d) -> ~ In k (keys acc)) by (intros k Hk; apply Fa, in_or_app; left; auto).
          clear Fa Kd. induction (keys acc) as [|x l IHl]; auto. inversion Na; subst. cbn. constructor.
          - intros X. apply in_app_or in X as [X|X]; auto. apply (Hf' x); auto. now left.
          - apply IHl; auto. intros k Hk X. apply (Hf' k); auto. now right. }
        { intros k Hk X. apply (Permutation_in k Pk) in X. apply in_app_or in X as [X|X].
          - apply (Fa k); auto. apply in_or_app. now right.
          - apply Kd in X. eapply nodup_app_disj; eauto. }
        repeat split; auto.
        + intros p. eapply same_outs_trans; [apply S2|]. cbn [map List.concat].
          eapply same_outs_trans; [apply same_outs_app; [apply same_outs_perm, sem_perm, P|apply same_outs_refl]|].
          unfold sem. rewrite flat_map_app, <- app_assoc. apply same_outs_app; [apply same_outs_refl|].
          apply same_outs_app; [|apply same_outs_refl]. apply (S p).
        + intros k Hk. apply K2 in Hk as [Hk|Hk]; [|right; cbn [flat_map]; apply in_or_app; now right].
          apply (Permutation_in k Pk) in Hk. apply in_app_or in Hk as [Hk|Hk]; auto. right. cbn [flat_map]. apply in_or_app. left. auto. }
    destruct (G [] g) as (S & Pl & Nd & K); auto.
    { constructor. } { constructor. }
    split; [|split; [|split]]; auto.
    - intros p. eapply same_outs_trans; [apply S|]. cbn [sem flat_map app]. rewrite emit_group. change (kind "GROUP") with KGroup. cbv iota.
      destruct Ht as [-> | ->]; apply same_outs_refl.
    - intros k Hk. rewrite ports_group. apply K in Hk as [[]|Hk]; auto.
  Qed.

  (** *** The whole computation *)
  Definition sem_po (d : po_value) (p : pkt) : list (Z * pkt) := flat_map (fun kv => run_out (snd kv) p) d.
  Lemma po_clean_sem d : entries_plain d -> forall d', po_clean d = Ok d' ->
    keys d' = keys d /\ forall p, same_outs (sem_po d' p) (sem d p).
  Proof.
    induction 1 as [|[k v] d Hv Hd IH]; intros d' E; cbn [po_clean] in E.
    - injection E as <-. split; auto. intros p. apply same_outs_refl.
    - apply rbind_ok in E as (v' & Ev & E). apply rbind_ok in E as (t' & Et & E). injection E as <-.
      destruct (IH _ Et) as [K S]. split; [unfold keys in *; cbn; congruence|]. intros p. cbn [sem_po sem flat_map snd].
      apply same_outs_app; [|apply S]. unfold remove_redundant in Ev. apply rbind_ok in Ev as (xs & Ex & Ev).
      cbn [snd] in Hv. pose proof (remove_redundant_effect pick _ _ Hv Ex) as E1.
      assert (Px : plain_list xs) by (eapply sublist_plain; [eapply remove_redundant_sub; eauto|exact Hv]).
      pose proof (teq_run _ _ (al_ok_iter _ _ (al_of_ok _ _ Ev)) Px) as E2.
      destruct (E1 p) as [_ X1]. destruct (E2 p) as [_ X2]. apply same_outs_sym. eapply same_outs_trans; eauto.
  Qed.
  Lemma per_output_teq xs l d : Forall wf_act xs -> NoDup (ports xs) -> teq xs (al_iter l) -> per_output_actions l = Ok d ->
    NoDup (keys d) /\ forall p, same_outs (sem_po d p) (run_out xs p).
  Proof.
    intros Hw Hn T E. unfold per_output_actions, per_output_actions_pt in E.
    apply rbind_ok in E as ([d0 pt] & E & E0). cbn [fst] in E0. injection E0 as ->.
    apply rbind_ok in E as ([d1 cur] & E1 & E). apply rbind_ok in E as (d2 & E2 & E). apply rbind_ok in E as (pp & _ & E). injection E as -> _.
    pose proof (ateq_perm _ _ T) as P.
    assert (Hw' : Forall wf_act (al_iter l)) by (eapply Permutation_Forall; eauto).
    assert (Hp : Permutation (ports xs) (ports (al_iter l))) by (now apply Permutation_flat_map).
    destruct (po_list_sem (al_iter l)) with (h := @nil action) (cur := al_empty) (res := @nil (Z * alist)) (d := d1) (cur' := cur) as (S & Pl & Nd & K); auto.
    { apply Forall_forall. intros a _. apply good_all. }
    { eapply Permutation_NoDup; eauto. }
    { apply al_empty_ok. } { reflexivity. }
    destruct (po_clean_sem d1 (Pl (Forall_nil _)) d E2) as [Kd Sd]. split; [rewrite Kd; apply Nd; constructor|].
    intros p. eapply same_outs_trans; [apply Sd|]. eapply same_outs_trans; [apply S|]. cbn [sem flat_map app run_pkt].
    apply same_outs_sym. assert (Hpl : forallb plain_act xs = true).
    { apply forallb_forall. intros a Ha. rewrite Forall_forall in Hw. apply wf_plain; auto. }
    apply (teq_effect pick _ _ T (plain_no_pbb _ Hpl)).
  Qed.
  Lemma per_output_sem xs l d : Forall wf_act xs -> NoDup (ports xs) -> al_of xs = Ok l -> per_output_actions l = Ok d ->
    NoDup (keys d) /\ forall p, same_outs (sem_po d p) (run_out xs p).
  Proof. intros Hw Hn Hl. apply per_output_teq; auto. exact (al_ok_iter _ _ (al_of_ok _ _ Hl)). Qed.
  Lemma per_output_teq_eq xs ys lx ly dx dy : Forall wf_act xs -> Forall wf_act ys -> NoDup (ports xs) -> NoDup (ports ys) ->
    teq xs (al_iter lx) -> teq ys (al_iter ly) -> per_output_actions lx = Ok dx -> per_output_actions ly = Ok dy ->
    (forall kv, In kv dx <-> In kv dy) -> forall p, same_outs (run_out xs p) (run_out ys p).
  Proof.
    intros Wx Wy Nx Ny Lx Ly Dx Dy H p.
    destruct (per_output_teq _ _ _ Wx Nx Lx Dx) as [Kx Sx]. destruct (per_output_teq _ _ _ Wy Ny Ly Dy) as [Ky Sy].
    eapply same_outs_trans; [apply same_outs_sym, Sx|]. eapply same_outs_trans; [|apply Sy].
    apply same_outs_perm. unfold sem_po. apply Permutation_flat_map. apply NoDup_Permutation; auto.
    - eapply NoDup_map_inv; exact Kx.
    - eapply NoDup_map_inv; exact Ky.
  Qed.
  Lemma per_output_eq xs ys lx ly dx dy : Forall wf_act xs -> Forall wf_act ys -> NoDup (ports xs) -> NoDup (ports ys) ->
    al_of xs = Ok lx -> al_of ys = Ok ly -> per_output_actions lx = Ok dx -> per_output_actions ly = Ok dy ->
    (forall kv, In kv dx <-> In kv dy) -> forall p, same_outs (run_out xs p) (run_out ys p).
  Proof.
    intros Wx Wy Nx Ny Lx Ly. apply per_output_teq_eq; auto; [exact (al_ok_iter _ _ (al_of_ok _ _ Lx))|exact (al_ok_iter _ _ (al_of_ok _ _ Ly))].
  Qed.
End Sem.

(** ** The dict is sorted by port, so equality of the model's lists is equality of frozensets *)
Definition po_sorted {V} (d : list (Z * V)) : Prop := StronglySorted Z.lt (keys d).
Lemma po_set_keys {V} (d : list (Z * V)) k v x : In x (keys (po_set d k v)) <-> x = k \/ In x (keys d).
Proof.
  induction d as [|[k' v'] d IH]; cbn [po_set]; [cbn; intuition|]. destruct (k <? k'); [cbn; intuition|].
  destruct (Z.eqb_spec k k') as [->|N]; [cbn; intuition|]. cbn in *. rewrite IH. intuition.
Qed.
Lemma po_set_sorted {V} (d : list (Z * V)) k v : po_sorted d -> po_sorted (po_set d k v).
Proof.
  unfold po_sorted. induction d as [|[k' v'] d IH]; cbn [po_set]; intros H; [repeat constructor|].
  inversion H as [|? ? H1 H2]; subst. destruct (Z.ltb_spec k k').
  - constructor; auto. constructor; auto. eapply Forall_impl; [|exact H2]. cbn. intros a Ha. lia.
  - destruct (Z.eqb_spec k k') as [->|N]; [constructor; auto|]. cbn. constructor; auto.
    apply Forall_forall. intros x Hx. apply po_set_keys in Hx as [->|Hx]; [lia|]. rewrite Forall_forall in H2. auto.
Qed.
Lemma po_sorted_eq {V} (d e : list (Z * V)) : po_sorted d -> po_sorted e -> (forall kv, In kv d <-> In kv e) -> d = e.
Proof.
  unfold po_sorted. revert e. induction d as [|[k v] d IH]; intros [|[k' v'] e] Hd He H; auto.
  - exfalso. apply (H (k', v')). now left.
  - exfalso. apply (H (k, v)). now left.
  - inversion Hd as [|? ? D1 D2]; inversion He as [|? ? E1 E2]; subst. cbn [fst] in *. rewrite Forall_forall in D2, E2.
    assert (A : (k, v) = (k', v')).
    { assert (I1 : In (k, v) ((k', v') :: e)) by (apply H; now left). assert (I2 : In (k', v') ((k, v) :: d)) by (apply H; now left).
      destruct I1 as [|I1]; auto. destruct I2 as [|I2]; auto.
      apply (in_map fst) in I1, I2. apply E2 in I1. apply D2 in I2. cbn in *. lia. }
    injection A as <- <-. f_equal. apply IH; auto. intros [a b]. specialize (H (a, b)). cbn in H.
    split; intros X.
    + destruct (proj1 H (or_intror X)) as [Y|Y]; auto. injection Y as <- <-. apply (in_map fst) in X. apply D2 in X. cbn in X. lia.
    + destruct (proj2 H (or_intror X)) as [Y|Y]; auto. injection Y as <- <-. apply (in_map fst) in X. apply E2 in X. cbn in X. lia.
Qed.
Lemma po_list_sorted b : forall res cur d cur', po_list b res cur = Ok (d, cur') -> po_sorted res -> po_sorted d.
Proof.
  induction b as [|a b IH]; intros res cur d cur' E H; cbn [po_list] in E; [injection E as <- <-; auto|].
  destruct (String.eqb (fst a) "OUTPUT").
  - destruct (snd a); try discriminate. apply rbind_ok in E as (o & _ & E). eapply IH; eauto. now apply po_set_sorted.
  - destruct (String.eqb (fst a) "GROUP").
    + apply rbind_ok in E as (g & _ & E). apply rbind_ok in E as (r & Er & E). eapply IH; eauto. clear - Er H.
      revert res Er H. induction g as [|kv g IHg]; intros res Er H; cbn [rfold] in Er; [injection Er as <-; auto|].
      apply rbind_ok in Er as (r1 & E1 & Er). apply rbind_ok in E1 as (x & _ & E1). injection E1 as <-. eapply IHg; eauto. now apply po_set_sorted.
    + apply rbind_ok in E as (c & _ & E). eapply IH; eauto.
Qed.
Lemma per_output_sorted l d : per_output_actions l = Ok d -> po_sorted d.
Proof.
  intros E. unfold per_output_actions, per_output_actions_pt in E.
  apply rbind_ok in E as ([d0 pt] & E & E0). cbn [fst] in E0. injection E0 as ->.
  apply rbind_ok in E as ([d1 cur] & E1 & E). apply rbind_ok in E as (d2 & E2 & E). apply rbind_ok in E as (pp & _ & E). injection E as -> _.
  apply po_list_sorted in E1; [|constructor]. unfold po_sorted in *. replace (keys d) with (keys d1); auto.
  clear - E2. revert d E2. induction d1 as [|[k v] d1 IH]; intros d E; cbn [po_clean] in E; [injection E as <-; auto|].
  apply rbind_ok in E as (v' & _ & E). apply rbind_ok in E as (t' & Et & E). injection E as <-. cbn. f_equal. apply (IH _ Et).
Qed.
