(** The path recorded with each rule of the single table (C24, C62). *)
From Coq Require Import ZifyBool ZifyNat ZifyN.
From Verif Require Import SingleTable SpecPipeline MatchWcProofs MatchProofs ActionProofs ExecProofs ActionSetProofs InstProofs MergeProofs SingleTableProofs PriorityProofs.
From Verif Require Normalise NormaliseProofs.
Local Open Scope string_scope.
Local Open Scope list_scope.
Local Open Scope Z_scope.
Local Opaque NB WC_FULLWC layout oxm_fields registry_init.

Lemma path_accepts_ext l : forall p q, (forall i, p i = q i) -> path_accepts l p -> path_accepts l q.
Proof.
  induction l as [|c l IH]; intros p q E H; [exact Logic.I|]. destruct H as [H1 H2]. split; [now apply (maccepts_ext _ p)|].
  apply (IH (inst_header (inst c) p)); [|auto]. intros i. now apply header_ext.
Qed.
Fixpoint path_header (l : list core) (p : packet) : packet :=
  match l with [] => p | c :: t => path_header t (inst_header (inst c) p) end.
Lemma path_header_ext l : forall p q, (forall i, p i = q i) -> forall i, path_header l p i = path_header l q i.
Proof. induction l as [|c l IH]; intros p q E; [exact E|]. apply IH. intros i. now apply header_ext. Qed.
Lemma path_accepts_app l l' p : path_accepts (l ++ l') p <-> path_accepts l p /\ path_accepts l' (path_header l p).
Proof. revert p. induction l as [|c l IH]; intros p; cbn [app path_accepts path_header]; [tauto|]. rewrite IH. tauto. Qed.
Lemma path_header_app l l' p : path_header (l ++ l') p = path_header l' (path_header l p).
Proof. revert p. induction l as [|c l IH]; intros p; cbn [app path_header]; auto. Qed.

(** equal cores accept and rewrite alike *)
Lemma match_eqb_accepts r r' a b : match_ok r a -> match_ok r' b -> match_eqb a b = true -> forall p, maccepts a p <-> maccepts b p.
Proof.
  intros Ha Hb H p. unfold match_eqb in H. apply andb_true_iff in H as [_ H]. assert (Hin := dict_eqb_in _ _ (proj1 Ha) (proj1 Hb) H).
  unfold maccepts, match_accepts, items_view. split; intros HA it Hit; apply in_map_iff in Hit as [kv [<- Hkv]]; apply HA; apply in_map_iff; exists kv; (split; [auto|now apply Hin]).
Qed.
Lemma opt_eqb_eq {X} (e : X -> X -> bool) : (forall x y, e x y = true -> x = y) -> forall a b, opt_eqb e a b = true -> a = b.
Proof. intros H [x|] [y|]; cbn; try discriminate; [|reflexivity]. intros E. f_equal. auto. Qed.
Lemma meta_eqb_eq x y : meta_eqb x y = true -> x = y.
Proof.
  destruct x as [v m], y as [v' m']. unfold meta_eqb. cbn [fst snd]. intros H. apply andb_true_iff in H as [H1 H2]. apply Z.eqb_eq in H1. subst v'. f_equal.
  apply (opt_eqb_eq Z.eqb); [|auto]. intros a b. apply Z.eqb_eq.
Qed.
Lemma inst_eqb_header i j : inst_ok i -> inst_ok j -> inst_eqb i j = true -> forall p k, inst_header i p k = inst_header j p k.
Proof.
  intros Hi Hj H p k. unfold inst_eqb in H. rewrite !andb_true_iff in H. destruct H as [[[[[_ Hm] _] Ha] _] _].
  apply (opt_eqb_eq meta_eqb meta_eqb_eq) in Hm. apply (al_eqb_iff _ _ _ _ Hi Hj) in Ha. rewrite !inst_header_rw. unfold apply_rw, rinst. rewrite Hm.
  now rewrite (teq_racts _ _ Ha).
Qed.
Definition core_wf (c : core) : Prop := (exists r, match_ok r (rmatch c)) /\ inst_ok (inst c).
Lemma path_eqb_accepts a : forall b, Forall core_wf a -> Forall core_wf b -> Normalise.path_eqb a b = true -> forall p, path_accepts a p <-> path_accepts b p.
Proof.
  induction a as [|c a IH]; intros [|d b] Ha Hb H p; cbn [Normalise.path_eqb] in H; try discriminate H; [tauto|].
  inversion Ha as [|? ? [[r1 M1] I1] Ha']; subst. inversion Hb as [|? ? [[r2 M2] I2] Hb']; subst. apply andb_true_iff in H as [H1 H2].
  unfold core_eqb in H1. rewrite !andb_true_iff in H1. destruct H1 as [[[[_ _] Em] Ei] _].
  assert (A := match_eqb_accepts _ _ _ _ M1 M2 Em). assert (E := inst_eqb_header _ _ I1 I2 Ei). cbn [path_accepts].
  assert (Q := IH b Ha' Hb' H2). unfold maccepts in A. rewrite A. rewrite (Q (inst_header (inst c) p)).
  split; intros [X Y]; (split; [auto|]); eapply path_accepts_ext; try exact Y; intros i; [apply E|symmetry; apply E].
Qed.

(** [c] accepts and rewrites as its path says *)
Definition path_ok (c : rule) : Prop :=
  path c <> [] /\ Forall core_wf (path c) /\ (forall p, rule_accepts c p <-> path_accepts (path c) p) /\
  (forall p k, inst_header (inst (rcore c)) p k = path_header (path c) p k).
Lemma path_ok_one r o c : good r o c -> path_ok (mkRule c [c]).
Proof.
  intros (M & (I & _) & _). split; [discriminate|]. split; [constructor; [split; eauto|constructor]|]. split; [|reflexivity].
  intros p. cbn [path path_accepts]. unfold rule_accepts. cbn [rcore]. tauto.
Qed.
Lemma path_ok_merge a b c : path_ok a -> path_ok b -> plain_inst (inst (rcore a)) -> plain_inst (inst (rcore b)) -> merged a b c -> path_ok c.
Proof.
  intros (N1 & W1 & A1 & H1) (N2 & W2 & A2 & H2) P1 P2 M. unfold path_ok. rewrite (mg_path _ _ _ M).
  split; [destruct (path a); [contradiction|discriminate]|]. split; [now apply Forall_app|]. split.
  - intros p. rewrite path_accepts_app, <- A1. transitivity (both (rcore a) (rcore b) p); [apply (mc_match _ _ _ (mg_core _ _ _ M))|]. unfold both.
    change (maccepts (rmatch (rcore b))) with (rule_accepts b). rewrite A2. unfold rule_accepts, maccepts.
    split; intros [X Y]; (split; [auto|]); eapply path_accepts_ext; try exact Y; intros i; [|symmetry]; apply H1.
  - intros p k. rewrite path_header_app, (seq_header _ _ _ p (mc_inst _ _ _ (mg_core _ _ _ M)) P1 P2), H2. apply path_header_ext. intros i. apply H1.
Qed.
Lemma condensed_path_ok t S C R o r : goods r o C -> goods r o S -> condensed t S C R -> Forall path_ok C -> Forall path_ok S -> Forall path_ok R.
Proof.
  intros GC GS H HC HS. apply Forall_forall. intros c Hc. rewrite Forall_forall in HC, HS. unfold goods in *. rewrite Forall_forall in GC, GS.
  destruct (condensed_in _ _ _ _ _ H Hc) as (a & Ha & [->|(s & Hs & Ms)]); [auto|]. apply (path_ok_merge a s); auto; [apply (GC a Ha)|apply (GS s Hs)].
Qed.

(** The rules after scaling and filling when no input rule has a path yet *)
Lemma single_setup rs o reg r' single : reg_ok reg -> Forall (good_rule reg o) rs -> (forall r, In r rs -> path r = []) ->
  to_single_table rs o reg = (r', Ok single) ->
  exists f F rest, let g r := [with_priority (rcore r) (priority (rcore r) * f (table (rcore r)))] in
  let rs3 := map (rescale f g) rs ++ map filler F in
  (forall u, 0 < f u) /\ (forall u, In u F -> In u (tables_of rs) /\ forall x, In x (map (rescale f g) rs) -> table (rcore x) = u -> priority (rcore x) <> 0) /\
  (forall t, In t (tables_of rs) -> exists x, In x rs3 /\ table (rcore x) = t /\ priority (rcore x) = 0) /\
  tables_of rs = 0 :: rest /\ sfold (next_table o rs3) rest (sort_prio (filter (in_table 0) rs3)) reg = (r', Ok single) /\
  (forall r, reg_ok r -> rle reg r -> goods r o rs3) /\ Forall path_ok rs3.
Proof.
  intros Hreg Hrs Hp H. unfold to_single_table in H. apply sbind_ok in H as (r1 & rs1 & E1 & H). unfold slift in E1. injection E1 as <- E1.
  destruct (scale_ok _ _ E1) as (f & Hf & -> & Hmax & Hpow). unfold to_single_table_scaled in H.
  rewrite tables_of_map in H by reflexivity. destruct (existsb (Z.eqb 0) (tables_of rs)) eqn:E0; cbn [negb] in H; [|discriminate H].
  assert (I0 : In 0 (tables_of rs)) by (apply existsb_exists in E0 as (x & Hx & E); apply Z.eqb_eq in E; now subst x).
  assert (Ep : map set_path (map (rescale f path) rs) = map (rescale f (fun r => [with_priority (rcore r) (priority (rcore r) * f (table (rcore r)))])) rs).
  { rewrite map_map. apply map_ext_in. intros r Hr. unfold set_path, rescale. cbn [path rcore]. now rewrite (Hp r Hr). }
  rewrite Ep in H. exists f.
  match type of H with context [map (rescale f ?g) rs] => set (g0 := g) in * end.
  destruct (fill_defaults (tables_of rs) (map (rescale f g0) rs)) as (F & EF & HF & Hfill). rewrite EF in H.
  assert (G3 := rs3_goods reg o rs f g0 F Hrs).
  assert (T0 : exists rest, tables_of rs = 0 :: rest).
  { assert (St := tables_of_sorted rs). destruct (tables_of rs) as [|t ts] eqn:Et; [destruct I0|]. exists ts. f_equal.
    inversion St as [|? ? _ Hlt]; subst. destruct I0 as [->|I0]; [reflexivity|]. rewrite Forall_forall in Hlt. specialize (Hlt 0 I0).
    assert (It : In t (tables_of rs)) by (rewrite Et; now left). apply tables_of_in in It as (r & Hr & Tr). rewrite Forall_forall in Hrs.
    destruct (Hrs r Hr) as (_ & _ & Q & _). lia. }
  destruct T0 as (rest & T0). exists F, rest. cbv zeta. split; [exact Hf|]. split; [exact HF|]. split; [exact Hfill|]. split; [exact T0|]. rewrite T0 in H. split; [exact H|].
  split; [exact G3|]. specialize (G3 reg Hreg (rle_refl reg)). unfold goods in G3. rewrite Forall_forall in *. intros x Hx. specialize (G3 x Hx).
  apply in_app_or in Hx as [Hx|Hx]; apply in_map_iff in Hx as (y & <- & Hy); exact (path_ok_one _ _ _ G3).
Qed.
Lemma sorted_sub {Q : rule -> Prop} t l : Forall Q l -> Forall Q (sort_prio (filter (in_table t) l)).
Proof. rewrite !Forall_forall. intros H x Hx. apply (Permutation_in x (Permutation_sym (sort_prio_perm _))), filter_In in Hx as [Hx _]. auto. Qed.
Lemma single_path_ok rs o reg r' single : reg_ok reg -> Forall (good_rule reg o) rs -> (forall r, In r rs -> path r = []) ->
  to_single_table rs o reg = (r', Ok single) -> Forall path_ok single.
Proof.
  intros Hreg Hrs Hp H. destruct (single_setup _ _ _ _ _ Hreg Hrs Hp H) as (f & F & rest & S). cbv zeta in S. clear H.
  match type of S with context [map (rescale f ?g) rs ++ _] => set (rs3 := map (rescale f g) rs ++ map filler F) in * end.
  destruct S as (_ & _ & _ & _ & H & G3 & P3).
  assert (Gen : forall rest C r, reg_ok r -> rle reg r -> goods r o C -> Forall path_ok C -> sfold (next_table o rs3) rest C r = (r', Ok single) -> Forall path_ok single).
  { clear H rest. induction rest as [|t rest IH]; intros C r Hr L GC TC H; cbn [sfold] in H.
    - unfold sret in H. injection H as <- <-. auto.
    - apply sbind_ok in H as (r1 & C1 & E & H). unfold next_table, single_table_condense in E.
      assert (GS : goods r o (sort_prio (filter (in_table t) rs3))) by (apply sorted_sub, G3; auto).
      destruct (condense_ok _ _ _ _ _ _ _ _ Hr GC GS E) as (R1 & L1 & R0 & -> & HR & GR). cbn [app] in *.
      apply (IH R0 r1); auto; [eapply rle_trans; eauto|]. eapply condensed_path_ok; [exact GC|exact GS|exact HR|auto|]. now apply sorted_sub. }
  apply (Gen rest (sort_prio (filter (in_table 0) rs3)) reg); auto using rle_refl; [apply sorted_sub, G3; auto using rle_refl|now apply sorted_sub].
Qed.
Lemma single_paths_tell rs o reg r' single : reg_ok reg -> Forall (good_rule reg o) rs -> (forall r, In r rs -> path r = []) ->
  to_single_table rs o reg = (r', Ok single) -> NormaliseProofs.paths_tell single.
Proof.
  intros Hreg Hrs Hp H. assert (P := single_path_ok _ _ _ _ _ Hreg Hrs Hp H). rewrite Forall_forall in P. split; [intros r Hr; apply (P r Hr)|].
  intros r1 r2 H1 H2 E p. destruct (P r1 H1) as (_ & W1 & A1 & _). destruct (P r2 H2) as (_ & W2 & A2 & _). rewrite A1, A2. now apply path_eqb_accepts.
Qed.

(** ** The path lists the rules that the packet hits *)
Definition vtracks (rs : list rule) (g : rule -> core) (done : list Z) (p : packet) (c : rule) : Prop :=
  exists vis extra, path c = map g vis ++ extra /\ (forall x, In x vis -> In x rs) /\
  match goto_table (inst (rcore c)) with
  | Some t => extra = [] /\ ~ In t done /\ forall q l, (forall i, q i = inst_header (inst (rcore c)) p i) -> visits rs t q l -> visits rs 0 p (vis ++ l)
  | None => (extra = [] \/ exists t, extra = [default_core t]) /\ visits rs 0 p vis
  end.
Section Visits.
  Variables (reg : registry) (o : bool) (rs : list rule) (f : Z -> Z) (F : list Z).
  Let g1 (r : rule) : core := with_priority (rcore r) (priority (rcore r) * f (table (rcore r))).
  Let g (r : rule) : list core := [g1 r].
  Hypothesis Hrs : Forall (good_rule reg o) rs.
  Hypothesis Htot : total_tables rs.
  Hypothesis Hf : forall u, 0 < f u.
  Let rs2 := map (rescale f g) rs.
  Let rs3 := rs2 ++ map filler F.
  Hypothesis HF : forall u, In u F -> forall x, In x rs2 -> table (rcore x) = u -> priority (rcore x) <> 0.
  Hypothesis Hfill : forall t, In t (tables_of rs) -> exists x, In x rs3 /\ table (rcore x) = t /\ priority (rcore x) = 0.
  Hypothesis G3 : forall r, reg_ok r -> rle reg r -> goods r o rs3.

  Definition vfollows (done : list Z) (r : registry) (C : list rule) : Prop :=
    reg_ok r /\ rle reg r /\ goods r o C /\ forall p, exists c, first_match C p (Some c) /\ vtracks rs g1 done p c.
  Lemma hit_in t q r : table_hit rs t q r -> In r rs.
  Proof. intros (l1 & l2 & -> & _). apply in_or_app. right. now left. Qed.
  Lemma visits_ext t q q' l : (forall i, q i = q' i) -> visits rs t q l -> visits rs t q' l.
  Proof.
    intros E H. revert q' E. induction H as [t p r t' l Hit G H IH|t p r Hit G|t p M]; intros q' E.
    - eapply vs_goto; [eapply hit_ext; eauto|exact G|]. apply IH. intros i. now apply header_ext.
    - eapply vs_stop; [eapply hit_ext; eauto|exact G].
    - apply vs_miss. eapply miss_ext; eauto.
  Qed.
  Lemma start_vfollows : reg_ok reg -> In 0 (tables_of rs) -> vfollows [0] reg (sort_prio (filter (in_table 0) rs3)).
  Proof using Hrs Htot Hf HF Hfill G3.
    intros Hr H0. split; [auto|]. split; [apply rle_refl|]. split; [apply sorted_sub, G3; auto using rle_refl|].
    intros p. destruct (table_first reg o rs f g F Hrs Htot Hf HF Hfill 0 p H0) as (s & Fs & _ & [(r & -> & Hit)|(-> & Miss)]); eexists; (split; [exact Fs|]).
    - assert (Ir := hit_in _ _ _ Hit). rewrite Forall_forall in Hrs. destruct (Hrs r Ir) as (_ & _ & _ & Hg).
      exists [r], []. split; [reflexivity|]. split; [intros x [<-|[]]; auto|]. change (inst (rcore (rescale f g r))) with (inst (rcore r)).
      destruct (goto_table (inst (rcore r))) as [t|] eqn:Eg.
      + split; [reflexivity|]. split.
        * intros [<-|[]]. specialize (Hg 0 eq_refl). destruct Hit as (l1 & l2 & _ & T & _). lia.
        * intros q l Eq Hv. cbn [app]. eapply vs_goto; eauto. eapply visits_ext; [|exact Hv]. exact Eq.
      + split; [now left|]. eapply vs_stop; eauto.
    - exists [], [default_core 0]. split; [reflexivity|]. split; [intros x []|]. cbn. split; [right; eauto|]. now apply vs_miss.
  Qed.
  Lemma step_vfollows done t r C r' R : vfollows done r C -> In t (tables_of rs) -> (forall u, In u done -> u < t) ->
    next_table o rs3 C t r = (r', Ok R) -> vfollows (done ++ [t]) r' R.
  Proof using Hrs Htot Hf HF Hfill G3.
    intros (Hr & L & GC & HC) Ht Hd H. unfold next_table, single_table_condense in H.
    assert (G3' := G3 r Hr L). assert (GS : goods r o (sort_prio (filter (in_table t) rs3))) by (apply sorted_sub, G3; auto).
    destruct (condense_ok _ _ _ _ _ _ _ _ Hr GC GS H) as (R' & L' & R0 & -> & HR & GR). cbn [app].
    split; [auto|]. split; [eapply rle_trans; eauto|]. split; [auto|]. intros p. destruct (HC p) as (c & Fc & vis & extra & Ep & Hv & Hgo).
    destruct (condensed_first _ _ _ _ p c HR Fc) as [Keep Mrg]. destruct (goto_table (inst (rcore c))) as [u|] eqn:Eg.
    - destruct Hgo as (-> & Nd & Hgo). rewrite app_nil_r in Ep. destruct (Z.eq_dec u t) as [->|Ne].
      + set (q := inst_header (inst (rcore c)) p) in *.
        destruct (table_first reg o rs f g F Hrs Htot Hf HF Hfill t q Ht) as (s & Fs & Is & Hs). destruct (Mrg s eq_refl Fs) as (m & Fm & Mm).
        exists m. split; [auto|]. assert (Sq := mc_inst _ _ _ (mg_core _ _ _ Mm)).
        apply NormaliseProofs.first_match_in in Fc as [Ic _]. unfold goods in GC. rewrite Forall_forall in GC. destruct (GC c Ic) as (_ & _ & Pc & _).
        assert (Ps : plain_inst (inst (rcore s))) by (unfold goods in G3'; rewrite Forall_forall in G3'; apply (G3' s Is)).
        assert (Hdr : forall i, inst_header (inst (rcore m)) p i = inst_header (inst (rcore s)) q i) by (intros i; now apply (seq_header _ _ _ p Sq Pc Ps)).
        assert (Pm := mg_path _ _ _ Mm). destruct Hs as [(x & -> & Hit)|(-> & Miss)].
        * assert (Ix := hit_in _ _ _ Hit). rewrite Forall_forall in Hrs. destruct (Hrs x Ix) as (_ & _ & _ & Hg).
          exists (vis ++ [x]), []. split; [rewrite Pm, Ep, map_app, app_nil_r; reflexivity|]. split; [intros y Hy; apply in_app_or in Hy as [Hy|[<-|[]]]; auto|].
          rewrite (sq_goto _ _ _ Sq). change (inst (rcore (rescale f g x))) with (inst (rcore x)) in *. destruct (goto_table (inst (rcore x))) as [v|] eqn:Ev.
          -- split; [reflexivity|]. split.
             ++ intros Hv'. specialize (Hg v eq_refl). destruct Hit as (l1 & l2 & _ & T & _). apply in_app_or in Hv' as [Hv'|[<-|[]]]; [|lia]. specialize (Hd v Hv'). lia.
             ++ intros q' l Eq Hl. rewrite <- app_assoc. cbn [app]. apply (Hgo q (x :: l)); [reflexivity|]. eapply vs_goto; eauto. eapply visits_ext; [|exact Hl].
                intros i. rewrite Eq. apply Hdr.
          -- split; [now left|]. apply (Hgo q [x]); [reflexivity|]. eapply vs_stop; eauto.
        * exists vis, [default_core t]. split; [rewrite Pm, Ep; reflexivity|]. split; [auto|]. rewrite (sq_goto _ _ _ Sq). cbn [filler rcore default_core inst goto_table inst_empty].
          split; [right; eauto|]. rewrite <- (app_nil_r vis). apply (Hgo q []); [reflexivity|]. now apply vs_miss.
      + assert (Ng : Some u <> Some t) by congruence. specialize (Keep Ng). exists c. split; [auto|]. exists vis, []. rewrite app_nil_r. split; [auto|]. split; [auto|].
        rewrite Eg. split; [reflexivity|]. split; [|auto]. intros Hu. apply in_app_or in Hu as [Hu|[Hu|[]]]; [auto|congruence].
    - assert (Ng : None <> Some t) by congruence. specialize (Keep Ng). exists c. split; [auto|]. exists vis, extra. split; [auto|]. split; [auto|]. now rewrite Eg.
  Qed.
  Lemma steps_vfollow rest : forall done r C r' R, vfollows done r C -> StronglySorted Z.lt (done ++ rest) -> (forall t, In t rest -> In t (tables_of rs)) ->
    sfold (next_table o rs3) rest C r = (r', Ok R) -> vfollows (done ++ rest) r' R.
  Proof using Hrs Htot Hf HF Hfill G3.
    induction rest as [|t rest IH]; intros done r C r' R HC Hs Hin H; cbn [sfold] in H.
    - unfold sret in H. injection H as <- <-. now rewrite app_nil_r.
    - apply sbind_ok in H as (r1 & C1 & E & H). replace (done ++ t :: rest) with ((done ++ [t]) ++ rest) in * by (now rewrite <- app_assoc).
      apply (IH _ r1 C1); [|exact Hs| |exact H].
      + eapply step_vfollows; eauto; [apply Hin; now left|]. intros u Hu. clear - Hs Hu. rewrite <- app_assoc in Hs. induction done as [|x d IHd]; [destruct Hu|].
        cbn [app] in Hs. inversion Hs as [|? ? H1 H2]; subst. destruct Hu as [->|Hu]; [|auto]. rewrite Forall_forall in H2. apply H2. apply in_or_app. right. now left.
      + intros u Hu. apply Hin. now right.
  Qed.
End Visits.
Lemma single_visits rs o reg r' single : reg_ok reg -> Forall (good_rule reg o) rs -> total_tables rs -> (forall r, In r rs -> path r = []) ->
  to_single_table rs o reg = (r', Ok single) -> forall p c, first_match single p (Some c) ->
  exists vis cs extra, visits rs 0 p vis /\ Forall2 (fun r d => same_rule (rcore r) d) vis cs /\ path c = cs ++ extra /\ (extra = [] \/ exists t, extra = [default_core t]).
Proof.
  intros Hreg Hrs Htot Hp H p c Hc. destruct (single_setup _ _ _ _ _ Hreg Hrs Hp H) as (f & F & rest & S). cbv zeta in S. destruct S as (Hf & HF & Hfill & T0 & Hfold & G3 & _).
  assert (HF' := fun u Hu => proj2 (HF u Hu)). assert (St := tables_of_sorted rs).
  assert (I0 : In 0 (tables_of rs)) by (rewrite T0; now left).
  assert (V := steps_vfollow reg o rs f F Hrs Htot Hf HF' Hfill G3 rest [0] reg _ r' single (start_vfollows reg o rs f F Hrs Htot Hf HF' Hfill G3 Hreg I0)).
  cbn [app] in V. rewrite <- T0 in V. destruct (V St ltac:(intros t Ht; rewrite T0; now right) Hfold) as (_ & _ & _ & Hall).
  destruct (Hall p) as (c' & Fc' & vis & extra & Ep & Hv & Hgo). assert (Some c' = Some c) as E by (eapply NormaliseProofs.first_match_unique; eauto). injection E as ->.
  exists vis, (map (fun r => with_priority (rcore r) (priority (rcore r) * f (table (rcore r)))) vis), extra.
  assert (F2 : Forall2 (fun r d => same_rule (rcore r) d) vis (map (fun r => with_priority (rcore r) (priority (rcore r) * f (table (rcore r)))) vis)).
  { clear. induction vis as [|x vis IH]; cbn [map]; constructor; [|auto]. split; [reflexivity|]. split; [reflexivity|]. split; reflexivity. }
  destruct (goto_table (inst (rcore c))) as [t|].
  - destruct Hgo as (-> & Nt & Hgo). split; [|split; [auto|split; [auto|now left]]]. rewrite <- (app_nil_r vis). apply (Hgo (inst_header (inst (rcore c)) p)); [reflexivity|]. apply vs_miss.
    intros x Hx Tx _. apply Nt, tables_of_in. eauto.
  - destruct Hgo as [Hx Hvis]. split; [auto|]. split; [auto|]. split; auto.
Qed.
