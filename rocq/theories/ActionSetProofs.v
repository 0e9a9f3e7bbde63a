(** ActionList.remove / copy and ActionSet. *)
From Verif Require Export SpecSet ExecProofs.
Local Open Scope string_scope.
Local Open Scope list_scope.
Local Open Scope Z_scope.

(** ** ActionList.remove *)
Lemma act_eqb_refl a : act_eqb a a = true.
Proof. now apply act_eqb_eq. Qed.
Lemma list_remove_app x u : forall w, ~ In x u -> list_remove x (u ++ w) = option_map (app u) (list_remove x w).
Proof.
  induction u as [|y u IH]; intros w H; cbn [app list_remove]; [now destruct (list_remove x w)|].
  destruct (act_eqb y x) eqn:E; [apply act_eqb_eq in E; subst; exfalso; apply H; now left|].
  rewrite IH by (intros Q; apply H; now right). destruct (list_remove x w); reflexivity.
Qed.
Lemma remove_levels_ok x rest : forall done off kept off', remove_levels x done rest off = Some (kept, off') ->
  exists a b, rest = a ++ b /\ kept = done ++ a /\ off' = (off + length (concat a))%nat /\ ~ In x (concat a).
Proof.
  induction rest as [|v rest IH]; intros done off kept off' H; cbn [remove_levels] in H; [discriminate|].
  destruct (existsb (fun y => act_eqb y x) v) eqn:E.
  - injection H as <- <-. exists [], (v :: rest). rewrite app_nil_r. cbn. repeat split; auto; lia.
  - apply IH in H as (a & b & -> & -> & -> & Hx). exists (v :: a), b. rewrite <- app_assoc. cbn. split; auto. split; auto.
    split; [rewrite app_length; lia|]. rewrite in_app_iff. intros [Q|Q]; auto.
    assert (existsb (fun y => act_eqb y x) v = true) by (apply existsb_exists; exists x; split; auto; apply act_eqb_refl). congruence.
Qed.
Lemma skipn_exact {A} (u w : list A) : skipn (length u) (u ++ w) = w.
Proof. induction u; auto. Qed.
Lemma lrel_app_inv a b L : lrel (a ++ b) L -> exists L1 L2, L = L1 ++ L2 /\ lrel a L1 /\ lrel b L2.
Proof.
  unfold lrel. revert L. induction a as [|m a IH]; intros L H; cbn in H.
  - exists [], L. repeat split; auto.
  - inversion H as [|? v ? L' H1 H2]; subst. apply IH in H2 as (L1 & L2 & -> & H3 & H4).
    exists (v :: L1), L2. split; auto.
Qed.
Lemma lrel_self M L : lrel M L -> lrel M M.
Proof. unfold lrel. induction 1 as [|m v M L [H1 H2] H IH]; constructor; auto. Qed.
Lemma nfp_app_l {A} (dp : A -> A -> bool) a : forall prev b, nfp dp prev (a ++ b) -> nfp dp prev a.
Proof.
  induction a as [|w a IH]; intros prev b H; cbn in *; auto. destruct H as (H1 & H2 & H3 & H4). eauto.
Qed.
Lemma al_remove_ok l x l' : al_ok l (al_iter l) -> al_remove l x = Ok l' ->
  exists ys, list_remove x (al_iter l) = Some ys /\ al_ok l' ys.
Proof.
  intros [H1 H2] H. unfold al_remove in H. rewrite H1 in H. destruct (list_remove x (al_iter l)) as [ys|] eqn:E; [|discriminate].
  destruct (remove_levels x [] (action_levels l) 0) as [[kept off]|] eqn:Er; [|discriminate].
  apply rbind_ok in H as (lv & Hl & H). injection H as <-. exists ys. split; auto. split; auto. cbn [action_levels].
  apply remove_levels_ok in Er as (a & b & Ha & Hk & Ho & Hx). cbn [app Nat.add] in Hk, Ho. subst kept off.
  assert (N : nfp dpb None (action_levels l)).
  { apply (nfp_leq dpb _ _ (leq_sym _ _ (lrel_leq _ _ H2)) None None Logic.I dpb_sym), nfp_foata. }
  unfold al_iter in E. rewrite Ha, concat_app, list_remove_app in E by auto.
  destruct (list_remove x (concat b)) as [zs|] eqn:Ez; [|discriminate]. injection E as <-.
  rewrite skipn_exact in Hl. rewrite Ha in N. apply nfp_app_l in N.
  assert (S : lrel a a). { rewrite Ha in H2. apply lrel_app_inv in H2 as (L1 & L2 & _ & Q & _). eapply lrel_self, Q. }
  assert (F : foata (concat a ++ zs) = fold_left place zs a).
  { unfold Foata.foata. rewrite fold_left_app. f_equal. apply foata_rebuild, N. }
  rewrite F. eapply rfold_levels; eauto.
Qed.
Lemma remove_each_copy l xs add r1 r2 rs l' : al_ok l xs -> al_copy l add (r1 :: r2 :: rs) = Ok l' ->
  exists ys, remove_each (r1 :: r2 :: rs) xs = Ok ys /\ al_ok l' (ys ++ add).
Proof.
  intros [H1 H2] H. unfold al_copy in H. apply rbind_ok in H as (ys & Hy & H). rewrite H1 in Hy. exists ys. split; auto.
  now apply al_of_ok.
Qed.
Lemma copy_add_ok l xs add l' : al_ok l xs -> al_copy l add [] = Ok l' -> al_ok l' (xs ++ add).
Proof. intros H Hc. eapply al_extend_ok; eauto. Qed.
Lemma copy_one_ok l add r l' : al_ok l (al_iter l) -> al_copy l add [r] = Ok l' ->
  exists ys, list_remove r (al_iter l) = Some ys /\ al_ok l' (ys ++ add).
Proof.
  intros H Hc. unfold al_copy in Hc. apply rbind_ok in Hc as (m & Hm & Hc). apply al_remove_ok in Hm as (ys & H1 & H2); auto.
  exists ys. split; auto. eapply al_extend_ok; eauto.
Qed.

(** ** ActionSet *)
Lemma slot_eqb_eq (s t : aslot) : slot_eqb s t = true <-> s = t.
Proof.
  destruct s, t; cbn; split; intros H; try discriminate; auto; try (apply String.eqb_eq in H; congruence);
    injection H as ->; apply String.eqb_refl.
Qed.


Lemma index_str_in s l : forall k i, index_str s l k = Some i -> In s l.
Proof.
  induction l as [|x l IH]; intros k i H; cbn in *; [discriminate|]. destruct (String.eqb_spec x s); [left; auto|right; eauto].
Qed.
Lemma insert_key_perm k x l : Permutation (insert_key k x l) ((k, x) :: l).
Proof.
  induction l as [|[k' y] l IH]; cbn; auto. destruct (Nat.leb k' k); auto. rewrite IH. constructor.
Qed.
Definition kle (a b : nat * action) : Prop := (fst a <= fst b)%nat.
Lemma insert_key_sorted k x l : StronglySorted kle l -> StronglySorted kle (insert_key k x l).
Proof.
  induction 1 as [|[k' y] l H IH F]; cbn; [repeat constructor|]. destruct (Nat.leb_spec k' k).
  - constructor; auto. rewrite insert_key_perm. constructor; auto.
  - constructor; [constructor; auto|]. constructor; [unfold kle; cbn; lia|]. eapply Forall_impl; [|exact F]. unfold kle. cbn. lia.
Qed.
Definition keyed (e : nat * action) : Prop := set_key (snd e) = Some (fst e).
Lemma set_sort_ok l : forall acc o, StronglySorted kle acc -> Forall keyed acc -> set_sort l acc = Ok o ->
  ordered o /\ Permutation o (map snd acc ++ l).
Proof.
  induction l as [|x l IH]; intros acc o Hs Hk H; cbn [set_sort] in H.
  - injection H as <-. rewrite app_nil_r. split; auto. clear - Hs Hk. induction Hs as [|a acc Hs IH F]; cbn; [constructor|].
    inversion Hk as [|? ? Ka Kl]; subst. constructor; [now apply IH|].
    clear - F Ka Kl. induction acc as [|b acc IH]; cbn; constructor; inversion F; inversion Kl; subst.
    + unfold key_le. unfold keyed in *. rewrite Ka, H5. assumption.
    + now apply IH.
  - destruct (index_str (fst x) action_set_order 0) as [k|] eqn:E; [|discriminate].
    apply IH in H.
    + destruct H as [H1 H2]. split; auto. rewrite H2. rewrite (Permutation_map snd (insert_key_perm k x acc)).
      cbn. apply Permutation_cons_app. reflexivity.
    + now apply insert_key_sorted.
    + rewrite insert_key_perm. constructor; auto.
Qed.
Lemma set_sort_total l : Forall (fun a => set_key a <> None) l -> forall acc, exists o, set_sort l acc = Ok o.
Proof.
  induction 1 as [|x l Hx H IH]; intros acc; cbn [set_sort]; eauto. unfold set_key in Hx. change exec_order with action_set_order in Hx.
  destruct (index_str (fst x) action_set_order 0); [apply IH|congruence].
Qed.

(** what the search for an action to replace finds *)
Lemma slot_same_name n v w : String.eqb n "SET_FIELD" = false -> slot_of (n, v) = slot_of (n, w).
Proof. intros H. unfold slot_of. rewrite H. reflexivity. Qed.
Lemma slot_fwd a : slot_of a = SFwd <-> fst a = "OUTPUT" \/ fst a = "GROUP".
Proof.
  destruct a as [n v]. cbn. destruct (String.eqb_spec n "SET_FIELD") as [->|N].
  - destruct v; split; intros H; try discriminate H; destruct H as [H|H]; discriminate H.
  - destruct (String.eqb_spec n "OUTPUT") as [->|N1]; cbn; [tauto|]. destruct (String.eqb_spec n "GROUP") as [->|N2]; cbn; [tauto|].
    split; [discriminate|intros [H|H]; contradiction].
Qed.
Lemma slot_name_eq a b : slot_of a = slot_of b -> slot_of a <> SFwd -> fst a = fst b.
Proof.
  destruct a as [n v], b as [m w]. cbn. destruct (String.eqb_spec n "SET_FIELD") as [->|N], (String.eqb_spec m "SET_FIELD") as [->|M]; auto.
  - destruct v; destruct (String.eqb m "OUTPUT" || String.eqb m "GROUP"); intros H; try discriminate H; congruence.
  - destruct w; destruct (String.eqb n "OUTPUT" || String.eqb n "GROUP"); intros H; try discriminate H; congruence.
  - destruct (String.eqb n "OUTPUT" || String.eqb n "GROUP"), (String.eqb m "OUTPUT" || String.eqb m "GROUP"); intros H K; congruence.
Qed.
Lemma set_find_some n v l x : set_find n v l = Ok (Some (Some x)) ->
  In x l /\ slot_of x = slot_of (n, v) /\ (fst x = n \/ (fst x = "OUTPUT" /\ n = "GROUP")).
Proof.
  induction l as [|y l IH]; cbn [set_find]; [discriminate|]. intros H.
  destruct (String.eqb_spec n (fst y)) as [E|E].
  - destruct (String.eqb_spec n "SET_FIELD") as [E1|E1].
    + destruct y as [m w]. cbn [fst snd] in *. destruct v as [| |f c|]; try discriminate H. destruct w as [| |f' c'|]; try discriminate H.
      destruct (String.eqb_spec f f').
      * injection H as <-. subst. split; [now left|]. split; auto.
      * apply IH in H as (H1 & H2 & H3). split; [now right|]. auto.
    + injection H as <-. split; [now left|]. split; auto. destruct y as [m w]. cbn [fst] in *. subst m.
      apply slot_same_name. now apply String.eqb_neq.
  - destruct (String.eqb_spec n "GROUP") as [E1|E1]; cbn [andb] in H.
    + destruct (String.eqb_spec (fst y) "OUTPUT") as [E2|E2].
      * injection H as <-. split; [now left|]. split; auto. transitivity SFwd; [apply slot_fwd; auto|symmetry; apply slot_fwd; auto].
      * destruct (String.eqb n "OUTPUT" && String.eqb (fst y) "GROUP"); [discriminate|]. apply IH in H as (H1 & H2 & H3). split; [now right|]. auto.
    + destruct (String.eqb n "OUTPUT" && String.eqb (fst y) "GROUP"); [discriminate|]. apply IH in H as (H1 & H2 & H3). split; [now right|]. auto.
Qed.
Lemma set_find_ignore n v l : set_find n v l = Ok None -> n = "OUTPUT" /\ exists y, In y l /\ fst y = "GROUP".
Proof.
  induction l as [|y l IH]; cbn [set_find]; [discriminate|]. intros H.
  destruct (String.eqb_spec n (fst y)) as [E|E].
  - destruct (String.eqb_spec n "SET_FIELD") as [E1|E1]; [|discriminate].
    destruct v as [| |f c|]; try discriminate H. destruct (snd y) as [| |f' c'|]; try discriminate H.
    destruct (String.eqb f f'); [discriminate|]. apply IH in H as (H1 & z & H2 & H3). split; auto. exists z. split; [now right|auto].
  - destruct (String.eqb n "GROUP" && String.eqb (fst y) "OUTPUT"); [discriminate|].
    destruct (String.eqb_spec n "OUTPUT") as [E2|E2]; cbn [andb] in H.
    + destruct (String.eqb_spec (fst y) "GROUP") as [E3|E3].
      * split; auto. exists y. split; [now left|auto].
      * apply IH in H as (H1 & z & H2 & H3). split; auto. exists z. split; [now right|auto].
    + apply IH in H as (H1 & z & H2 & H3). split; auto. exists z. split; [now right|auto].
Qed.
Lemma set_find_none n v l : set_find n v l = Ok (Some None) -> Forall (fun y => slot_of y <> slot_of (n, v)) l.
Proof.
  induction l as [|y l IH]; cbn [set_find]; [constructor|]. intros H.
  destruct (String.eqb_spec n (fst y)) as [E|E].
  - destruct (String.eqb_spec n "SET_FIELD") as [E1|E1]; [|discriminate]. destruct y as [m w]. cbn [fst snd] in *.
    destruct v as [| |f c|]; try discriminate H. destruct w as [| |f' c'|]; try discriminate H.
    destruct (String.eqb_spec f f'); [discriminate|]. constructor; auto. subst. cbn. congruence.
  - assert (G : set_find n v l = Ok (Some None) /\ (n = "GROUP" -> fst y <> "OUTPUT") /\ (n = "OUTPUT" -> fst y <> "GROUP")).
    { destruct (String.eqb_spec n "GROUP") as [E1|E1]; cbn [andb] in H.
      - destruct (String.eqb_spec (fst y) "OUTPUT") as [E2|E2]; [discriminate|]. subst n. cbn in H. repeat split; auto; intros; discriminate.
      - destruct (String.eqb_spec n "OUTPUT") as [E3|E3]; cbn [andb] in H.
        + destruct (String.eqb_spec (fst y) "GROUP") as [E2|E2]; [discriminate|]. repeat split; auto; intros; congruence.
        + repeat split; auto; intros; congruence. }
    destruct G as (G1 & G2 & G3). constructor; auto. intros Q.
    destruct (slot_of y) eqn:Es.
    1,3: (assert (fst y = n); [|congruence]; symmetry; change n with (fst (n, v)); apply slot_name_eq; [congruence|rewrite <- Q; discriminate]).
    symmetry in Q. apply slot_fwd in Q, Es. cbn [fst] in Q. destruct Q, Es; try congruence; [apply (G3 H0); auto|apply (G2 H0); auto].
Qed.
(** what the code can reject: only malformed SET_FIELDs *)
Definition wf_set (a : action) : Prop := fst a = "SET_FIELD" -> exists f c, snd a = VSet f c.
Lemma set_find_total n v l : wf_set (n, v) -> Forall wf_set l -> exists r, set_find n v l = Ok r.
Proof.
  intros Hw. induction 1 as [|y l Hy H IH]; cbn [set_find]; eauto.
  destruct (String.eqb_spec n (fst y)) as [E|E].
  - destruct (String.eqb_spec n "SET_FIELD") as [E1|E1]; eauto.
    destruct (Hw E1) as (f & c & Ef). cbn in Ef. subst v. destruct Hy as (g & d & Eg); [congruence|]. rewrite Eg. destruct (String.eqb f g); eauto.
  - destruct (String.eqb n "GROUP" && String.eqb (fst y) "OUTPUT"); eauto. destruct (String.eqb n "OUTPUT" && String.eqb (fst y) "GROUP"); eauto.
Qed.

(** actions of the same slot depend on the same things *)
Definition replaces (x i : action) : Prop :=
  slot_of x = slot_of i /\ (fst x = fst i \/ (fst x = "OUTPUT" /\ fst i = "GROUP")).
Lemma sassoc_in2 {V} k (l : list (string * V)) v : sassoc k l = Some v -> In (k, v) l.
Proof.
  induction l as [|[k' w] l IH]; cbn; [discriminate|]. destruct (String.eqb_spec k' k); [intros [= ->]; subst; auto|auto].
Qed.
Lemma fwd_deps : forallb (fun e : string * list atype => Bool.eqb (type_in (TName "OUTPUT") (snd e)) (type_in (TName "GROUP") (snd e)))
  (name_deps ++ field_deps) = true.
Proof. vm_compute. reflexivity. Qed.
Lemma fwd_type_in t l : action_dependancies t = Ok l -> type_in (TName "OUTPUT") l = type_in (TName "GROUP") l.
Proof.
  intros H. pose proof fwd_deps as F. rewrite forallb_forall in F.
  assert (exists k, In (k, l) (name_deps ++ field_deps)) as (k & Hk).
  { unfold action_dependancies in H. destruct t as [n|f].
    - destruct (sassoc n name_deps) eqn:E; [|discriminate]. injection H as <-. exists n. apply in_app_iff. left. now apply sassoc_in2.
    - destruct (sassoc f field_deps) eqn:E; [|discriminate]. injection H as <-. exists f. apply in_app_iff. right. now apply sassoc_in2. }
  apply F in Hk. now apply Bool.eqb_prop in Hk.
Qed.
Lemma replaces_type x i : replaces x i -> fst x = fst i -> to_type x = to_type i.
Proof.
  destruct x as [n v], i as [m w]. intros [H1 _] E. cbn in E. subst m. unfold to_type. cbn [fst snd] in *.
  unfold slot_of in H1. destruct (String.eqb n "SET_FIELD"); auto. destruct v, w; congruence.
Qed.
Lemma replaces_depends x i b : replaces x i -> depends x b = depends i b.
Proof.
  intros R. assert (R' := R). destruct R as [R1 [E|[E1 E2]]].
  - unfold depends. rewrite (replaces_type x i R' E), E. reflexivity.
  - unfold depends. replace (to_type x) with (Ok (TName "OUTPUT")) by (unfold to_type; rewrite E1; reflexivity).
    replace (to_type i) with (Ok (TName "GROUP")) by (unfold to_type; rewrite E2; reflexivity). rewrite E1, E2. cbn [rbind].
    destruct (to_type b) as [t|]; auto. cbn [rbind].
    replace (action_dependancies (TName "OUTPUT")) with (action_dependancies (TName "GROUP")) by reflexivity.
    destruct (action_dependancies (TName "GROUP")) as [dg|]; auto. cbn [rbind].
    destruct (action_dependancies t) as [d|] eqn:Ed; auto. cbn [rbind]. rewrite (fwd_type_in _ _ Ed). reflexivity.
Qed.
Lemma replaces_dpb x i b : replaces x i -> dpb x b = dpb i b.
Proof. intros R. unfold dpb. now rewrite (replaces_depends x i b R). Qed.
Lemma replaces_known x i : replaces x i -> known x = known i.
Proof.
  intros R. assert (R' := R). destruct R as [R1 [E|[E1 E2]]]; unfold known.
  - now rewrite (replaces_type x i R' E).
  - unfold to_type. rewrite E1, E2. reflexivity.
Qed.

Definition rename (x i a : action) : action := if act_eqb a x then i else a.
Lemma rename_other x i l : ~ In x l -> map (rename x i) l = l.
Proof.
  induction l as [|y l IH]; cbn; auto. intros H. unfold rename at 1. destruct (act_eqb y x) eqn:E.
  - apply act_eqb_eq in E. subst. exfalso. auto.
  - rewrite IH; auto.
Qed.
Lemma replace_first_other x i l : ~ In x l -> replace_first x i l = None.
Proof.
  induction l as [|y l IH]; cbn; auto. intros H. destruct (act_eqb y x) eqn:E.
  - apply act_eqb_eq in E. subst. exfalso. auto.
  - rewrite IH; auto.
Qed.
Lemma replace_first_ok x i l : NoDup l -> In x l -> replace_first x i l = Some (map (rename x i) l).
Proof.
  induction 1 as [|y l Hy Hn IH]; cbn [In]; [contradiction|]. intros H. cbn [replace_first map]. unfold rename at 1.
  destruct (act_eqb y x) eqn:E.
  - apply act_eqb_eq in E. subst. now rewrite rename_other.
  - destruct H as [->|H]; [rewrite act_eqb_refl in E; discriminate|]. now rewrite IH.
Qed.
Lemma nodup_app {A} (l r : list A) : NoDup (l ++ r) -> NoDup l /\ NoDup r /\ (forall x, In x l -> ~ In x r).
Proof.
  induction l as [|y l IH]; cbn; intros H; [repeat split; auto; constructor|]. inversion H as [|? ? Hy Hl]; subst.
  apply IH in Hl as (H1 & H2 & H3). rewrite in_app_iff in Hy. repeat split; auto; [constructor; tauto|].
  intros x [->|Hx]; auto.
Qed.
Lemma replace_level_ok x i M : NoDup (concat M) -> In x (concat M) -> replace_level x i M = Some (map (map (rename x i)) M).
Proof.
  induction M as [|v M IH]; cbn [concat]; [contradiction|]. intros Hn H. apply nodup_app in Hn as (H1 & H2 & H3).
  cbn [replace_level map]. apply in_app_iff in H as [H|H].
  - rewrite replace_first_ok by auto. f_equal. f_equal. clear - H H3. apply H3 in H. clear H3.
    induction M as [|w M IH]; cbn in *; auto. rewrite in_app_iff in H. rewrite rename_other by tauto. rewrite <- IH by tauto. reflexivity.
  - rewrite replace_first_other, IH by (auto; intros Q; apply (H3 _ Q H)). cbn. f_equal. f_equal. rewrite rename_other; auto.
    intros Q; apply (H3 _ Q H).
Qed.

Lemma cmp_replace x i b : slot_of x = slot_of i -> fst x = fst i -> slot_of b <> slot_of x -> act_le x b -> act_le i b.
Proof.
  destruct x as [n v], i as [m w], b as [k u]. cbn [fst]. intros Hs E Hb. subst m. unfold act_le, act_cmp. cbn [fst snd].
  destruct (String.compare n k) eqn:C; auto. apply str_cmp_eq in C. subst k.
  unfold slot_of in Hs, Hb. destruct (String.eqb_spec n "SET_FIELD") as [->|N].
  - destruct v as [|vn|f c|gt bs], u as [|un|f2 c2|gt2 bs2]; try (intros [Q|Q]; discriminate Q); try congruence.
    destruct w as [|wn|f3 c3|gt3 bs3]; try discriminate Hs. injection Hs as <-. cbn [val_cmp].
    destruct (String.compare f f2) eqn:C2; auto. apply str_cmp_eq in C2. subst. congruence.
  - congruence.
Qed.
Lemma cmp_replace_r x i b : slot_of x = slot_of i -> fst x = fst i -> slot_of b <> slot_of x -> act_le b x -> act_le b i.
Proof.
  destruct x as [n v], i as [m w], b as [k u]. cbn [fst]. intros Hs E Hb. subst m. unfold act_le, act_cmp. cbn [fst snd].
  destruct (String.compare k n) eqn:C; auto. apply str_cmp_eq in C. subst k.
  unfold slot_of in Hs, Hb. destruct (String.eqb_spec n "SET_FIELD") as [->|N].
  - destruct v as [|vn|f c|gt bs], u as [|un|f2 c2|gt2 bs2]; try (intros [Q|Q]; discriminate Q); try congruence.
    destruct w as [|wn|f3 c3|gt3 bs3]; try discriminate Hs. injection Hs as <-. cbn [val_cmp].
    destruct (String.compare f2 f) eqn:C2; auto. apply str_cmp_eq in C2. subst. congruence.
  - congruence.
Qed.
(** a forwarding action shares its level with forwarding actions only *)
Lemma fwd_alone x b : slot_of x = SFwd -> dpb x b = false -> slot_of b = SFwd.
Proof.
  intros Hs H. apply dpb_false in H. apply slot_fwd in Hs. apply slot_fwd.
  apply emits_names. eapply indep_emit; [exact H|]. destruct Hs as [-> | ->]; reflexivity.
Qed.
Lemma rename_sorted x i v : replaces x i -> NoDup (map slot_of v) -> ForallOrdPairs (ind dpb) v -> ssorted v -> ssorted (map (rename x i) v).
Proof.
  intros R. induction v as [|a v IH]; cbn [map]; intros Hn Hf Hs; [constructor|].
  inversion Hn as [|? ? Hn1 Hn2]; inversion Hf as [|? ? Hf1 Hf2]; inversion Hs as [|? ? Hs1 Hs2]; subst. constructor; [auto|].
  apply Forall_forall. intros b' Hb'. apply in_map_iff in Hb' as (b & <- & Hb).
  rewrite Forall_forall in Hf1, Hs2. specialize (Hf1 b Hb). specialize (Hs2 b Hb). unfold ind in Hf1.
  assert (Hne : slot_of b <> slot_of a) by (intros Q; apply Hn1; rewrite <- Q; now apply in_map).
  assert (R' := R). destruct R as [R1 R2]. unfold rename. destruct (act_eqb a x) eqn:Ea, (act_eqb b x) eqn:Eb.
  - apply act_le_refl.
  - apply act_eqb_eq in Ea. subst a. destruct R2 as [R2|[R2 R3]]; [eapply cmp_replace; eauto|].
    exfalso. assert (Sx : slot_of x = SFwd) by (apply slot_fwd; auto). apply (fwd_alone x b Sx) in Hf1. congruence.
  - apply act_eqb_eq in Eb. subst b. destruct R2 as [R2|[R2 R3]]; [eapply cmp_replace_r; eauto|].
    exfalso. assert (Sx : slot_of x = SFwd) by (apply slot_fwd; auto). rewrite dpb_sym in Hf1. apply (fwd_alone x a Sx) in Hf1. congruence.
  - exact Hs2.
Qed.

(** the state reached after the writes [xs] *)
Definition set_inv (s : alist) (xs : list action) : Prop :=
  let o := orig_order s in
  al_ok s o /\ ordered o /\ NoDup (map slot_of o) /\ (forall a, In a o <-> winner xs a) /\ all_known o.

Lemma nodup_map {A B} (f : A -> B) l : NoDup (map f l) -> NoDup l.
Proof. induction l as [|x l IH]; cbn; intros H; constructor; inversion H; subst; auto. intros Q. apply H2. now apply in_map. Qed.
Lemma rename_slots x i l : slot_of x = slot_of i -> map slot_of (map (rename x i) l) = map slot_of l.
Proof.
  intros H. rewrite map_map. apply map_ext. intros a. unfold rename. destruct (act_eqb a x) eqn:E; auto. apply act_eqb_eq in E. now subst.
Qed.
Lemma al_ok_iter_perm s o : al_ok s o -> Permutation o (al_iter s).
Proof. intros H. apply ateq_perm, al_ok_iter, H. Qed.

Lemma rename_al_ok x i s : replaces x i -> NoDup (map slot_of (orig_order s)) -> In x (orig_order s) -> al_ok s (orig_order s) ->
  exists lv, replace_first x i (orig_order s) = Some (map (rename x i) (orig_order s)) /\
    replace_level x i (action_levels s) = Some lv /\ al_ok (mkAL (map (rename x i) (orig_order s)) lv) (map (rename x i) (orig_order s)).
Proof.
  intros R Hn Hx Hok. assert (P := al_ok_iter_perm _ _ Hok). set (o := orig_order s) in *. exists (map (map (rename x i)) (action_levels s)).
  split; [apply replace_first_ok; auto; now apply nodup_map in Hn|]. split.
  - apply replace_level_ok.
    + eapply Permutation_NoDup; [exact P|]. now apply nodup_map in Hn.
    + eapply Permutation_in; [exact P|exact Hx].
  - split; [reflexivity|]. cbn [action_levels]. destruct Hok as [_ L]. rewrite foata_map; [|apply dpb_sym|].
    + assert (Hl : Forall (fun v => NoDup (map slot_of v)) (foata o)).
      { assert (Q : NoDup (map slot_of (concat (foata o)))).
        { eapply Permutation_NoDup; [apply Permutation_map, foata_perm|exact Hn]. }
        clear - Q. induction (foata o) as [|v L IH]; constructor; cbn in Q; rewrite map_app in Q; apply nodup_app in Q as (Q1 & Q2 & _); auto. }
      assert (Hi : lev_ok dpb (foata o)) by apply foata_ok.
      unfold lrel in *. clearbody o. clear - R Hl Hi L. induction L as [|m v M L [Hm Hp] H IH]; cbn [map]; [constructor|].
      inversion Hl as [|? ? Hl1 Hl2]; inversion Hi as [|? ? Hi1 Hi2]; subst. constructor; [|auto]. split; [|now apply Permutation_map].
      apply rename_sorted; auto.
      * eapply Permutation_NoDup; [apply Permutation_map, Permutation_sym, Hp|exact Hl1].
      * eapply (perm_fop dpb); [apply dpb_sym|apply Permutation_sym, Hp|exact Hi1].
    + intros a b _ _. unfold rename. destruct (act_eqb a x) eqn:Ea, (act_eqb b x) eqn:Eb; auto.
      * apply act_eqb_eq in Ea, Eb. subst. rewrite <- (replaces_dpb x i i R), dpb_sym, <- (replaces_dpb x i x R). reflexivity.
      * apply act_eqb_eq in Ea. subst. symmetry. now apply replaces_dpb.
      * apply act_eqb_eq in Eb. subst. rewrite dpb_sym, (dpb_sym a x). symmetry. now apply replaces_dpb.
Qed.

Lemma NoDup_app_fwd {A} (l r : list A) : NoDup l -> NoDup r -> (forall x, In x l -> ~ In x r) -> NoDup (l ++ r).
Proof.
  induction 1 as [|x l Hx Hl IH]; cbn; auto. intros Hr Hd. constructor; [|apply IH; auto; intros; apply Hd; now right].
  rewrite in_app_iff. intros [Q|Q]; [auto|]. apply (Hd x); auto.
Qed.

Lemma latest_snoc p xs i : latest p (xs ++ [i]) = if p i then Some i else latest p xs.
Proof. unfold latest. now rewrite rev_app_distr. Qed.
Lemma existsb_snoc {A} (p : A -> bool) xs i : existsb p (xs ++ [i]) = existsb p xs || p i.
Proof. rewrite existsb_app. cbn. now rewrite orb_false_r. Qed.
Lemma latest_some p xs a : latest p xs = Some a -> In a xs /\ p a = true.
Proof. unfold latest. intros H. apply find_some in H as [H1 H2]. rewrite <- in_rev in H1. auto. Qed.
Lemma latest_none p xs a : latest p xs = None -> In a xs -> p a = false.
Proof. unfold latest. intros H Hi. eapply find_none; [exact H|]. now apply in_rev in Hi. Qed.
(** two winners of one slot are equal, and a slot that was written has a winner *)
Lemma winner_unique xs a b : winner xs a -> winner xs b -> slot_of a = slot_of b -> a = b.
Proof.
  unfold winner. intros Ha Hb E. rewrite <- E in Hb. destruct (slot_of a); try congruence.
  destruct (existsb (is_name "GROUP") xs); congruence.
Qed.
Lemma winner_in xs a : winner xs a -> In a xs.
Proof.
  unfold winner. destruct (slot_of a); try (intros H; now apply latest_some in H).
  destruct (existsb (is_name "GROUP") xs); intros H; now apply latest_some in H.
Qed.
Lemma winner_exists xs a : In a xs -> exists b, winner xs b /\ slot_of b = slot_of a.
Proof.
  intros Hi. destruct (slot_of a) eqn:E.
  1,3: (match type of E with _ = ?s => destruct (latest (fun b => slot_eqb (slot_of b) s) xs) as [b|] eqn:El;
    [exists b; destruct (latest_some _ _ _ El) as [_ Q]; apply slot_eqb_eq in Q; split; auto; unfold winner; rewrite Q; exact El
    |exfalso; pose proof (latest_none _ _ a El Hi) as Q; cbn beta in Q; rewrite E in Q;
     assert (slot_eqb s s = true) by (now apply slot_eqb_eq); congruence] end).
  destruct (existsb (is_name "GROUP") xs) eqn:Eg.
  - destruct (latest (is_name "GROUP") xs) as [b|] eqn:El.
    + exists b. destruct (latest_some _ _ _ El) as [_ Q]. apply String.eqb_eq in Q. assert (slot_of b = SFwd) by (apply slot_fwd; auto).
      split; auto. unfold winner. now rewrite H, Eg.
    + exfalso. apply existsb_exists in Eg as (g & Hg & Q). pose proof (latest_none _ _ g El Hg). congruence.
  - destruct (latest (is_name "OUTPUT") xs) as [b|] eqn:El.
    + exists b. destruct (latest_some _ _ _ El) as [_ Q]. apply String.eqb_eq in Q. assert (slot_of b = SFwd) by (apply slot_fwd; auto).
      split; auto. unfold winner. now rewrite H, Eg.
    + exfalso. apply slot_fwd in E as [E|E].
      * pose proof (latest_none _ _ a El Hi) as Q. unfold is_name in Q. rewrite E in Q. discriminate Q.
      * assert (existsb (is_name "GROUP") xs = true); [|congruence]. apply existsb_exists. exists a. split; auto. unfold is_name. now apply String.eqb_eq.
Qed.
(** how one write changes the winners *)
Definition hidden (xs : list action) (i : action) : bool := is_name "OUTPUT" i && existsb (is_name "GROUP") xs.
Lemma winner_snoc xs i a : winner (xs ++ [i]) a <->
  (if hidden xs i then winner xs a else a = i \/ (winner xs a /\ slot_of a <> slot_of i)).
Proof.
  unfold winner. rewrite existsb_snoc, !latest_snoc.
  assert (Hx : is_name "OUTPUT" i = true -> is_name "GROUP" i = false).
  { unfold is_name. destruct (String.eqb_spec (fst i) "OUTPUT") as [E|E]; [rewrite E; reflexivity|discriminate]. }
  assert (Hf : slot_of i = SFwd <-> is_name "OUTPUT" i = true \/ is_name "GROUP" i = true).
  { unfold is_name. rewrite !String.eqb_eq. apply slot_fwd. }
  destruct (slot_of a) as [f| |n] eqn:Ea.
  1,3: (match type of Ea with _ = ?s => cbn beta; rewrite latest_snoc; destruct (slot_eqb (slot_of i) s) eqn:Es end;
    [apply slot_eqb_eq in Es;
      assert (hidden xs i = false) as -> by (unfold hidden; destruct (is_name "OUTPUT" i) eqn:Eo; auto; rewrite (proj2 Hf) in Es by auto; discriminate Es);
      split; [intros [= ->]; auto|intros [->|[_ Q]]; [auto|congruence]]
    |assert (Hne : slot_of i <> slot_of a) by (intros Q; rewrite Ea in Q; apply slot_eqb_eq in Q; congruence);
      destruct (hidden xs i); [reflexivity|]; split; [intros Q; right; split; congruence|intros [->|[Q _]]; [congruence|exact Q]]]).
  destruct (is_name "GROUP" i) eqn:Eg.
  - rewrite orb_true_r. assert (hidden xs i = false) as -> by (unfold hidden; destruct (is_name "OUTPUT" i) eqn:Eo; auto; specialize (Hx eq_refl); congruence).
    split; [intros [= ->]; auto|]. intros [->|[_ Q]]; auto. exfalso. apply Q. symmetry. apply Hf. auto.
  - rewrite orb_false_r. unfold hidden. destruct (is_name "OUTPUT" i) eqn:Eo; cbn [andb].
    + destruct (existsb (is_name "GROUP") xs); [reflexivity|]. split; [intros [= ->]; auto|]. intros [->|[_ Q]]; auto.
      exfalso. apply Q. symmetry. apply Hf. auto.
    + assert (slot_of i <> SFwd) by (intros Q; apply Hf in Q as [Q|Q]; discriminate Q).
      split; [intros Q; right; split; [exact Q|congruence]|]. intros [->|[Q _]]; [congruence|exact Q].
Qed.

Lemma all_known_perm l r : Permutation l r -> all_known l -> all_known r.
Proof.
  intros P [H|H]; [left; now rewrite <- (Permutation_length P)|right; now rewrite <- P].
Qed.
Lemma al_of_levels o lv : rfold levels_append o [] = Ok lv -> al_of o = Ok (mkAL o lv).
Proof.
  unfold al_of, al_extend. assert (G : forall xs M pre lv, rfold levels_append xs M = Ok lv -> rfold al_append xs (mkAL pre M) = Ok (mkAL (pre ++ xs) lv)).
  { induction xs as [|x xs IH]; intros M pre lv0 H; cbn in *; [injection H as <-; now rewrite app_nil_r|].
    destruct (levels_append M x) as [M'|] eqn:E; [|discriminate]. cbn [rbind] in H. unfold al_append at 1. cbn [orig_order action_levels].
    rewrite E. cbn [rbind]. rewrite (IH M' (pre ++ [x]) lv0 H). now rewrite <- app_assoc. }
  intros H. apply (G o [] [] lv H).
Qed.
Lemma as_append_inv s xs i s' : set_inv s xs -> as_append s i = Ok s' -> set_inv s' (xs ++ [i]).
Proof.
  intros (Hok & Ho & Hn & Hw & Hk) H. assert (P := al_ok_iter_perm _ _ Hok). unfold as_append in H.
  apply rbind_ok in H as (f & Hf & H). destruct f as [[x|]|].
  - apply set_find_some in Hf as (Hx & Hs & Hname). rewrite <- P in Hx.
    assert (R : replaces x (fst i, snd i)) by (split; [auto|exact Hname]).
    rewrite <- surjective_pairing in R, Hs.
    destruct (rename_al_ok x i s R Hn Hx Hok) as (lv & E1 & E2 & Hok'). rewrite E1, E2 in H. injection H as <-.
    unfold set_inv. cbn [orig_order]. set (o := orig_order s) in *.
    assert (Hother : forall a, In a o -> a <> x -> slot_of a <> slot_of i).
    { intros a Ha Hne Q. apply Hne. apply (winner_unique xs); [apply Hw, Ha|apply Hw, Hx|congruence]. }
    split; [exact Hok'|]. split; [|split; [|split]].
    + (* the execution order is kept *)
      unfold ordered in *. clear - Ho Hn Hname Hs. clearbody o. induction Ho as [|a o Ho IH F]; cbn [map]; [constructor|].
      cbn [map] in Hn. inversion Hn as [|? ? Hn1 Hn2]; subst. constructor; [auto|].
      apply Forall_forall. intros b' Hb'. apply in_map_iff in Hb' as (b & <- & Hb). rewrite Forall_forall in F. specialize (F b Hb).
      assert (Hne : slot_of b <> slot_of a) by (intros Q; apply Hn1; rewrite <- Q; now apply in_map).
      assert (K : fst x = fst i -> set_key x = set_key i) by (intros E; unfold set_key; now rewrite E).
      unfold rename. destruct (act_eqb a x) eqn:Ea, (act_eqb b x) eqn:Eb; auto.
      * apply act_eqb_eq in Ea, Eb. subst. congruence.
      * apply act_eqb_eq in Ea. subst a. unfold key_le in *. destruct Hname as [E|[E E']]; [now rewrite <- (K E)|].
        unfold set_key in *. rewrite E in F. rewrite E'.
        change (index_str "OUTPUT" exec_order 0) with (Some 15%nat) in F. change (index_str "GROUP" exec_order 0) with (Some 14%nat).
        destruct (index_str (fst b) exec_order 0); [lia|exact F].
      * apply act_eqb_eq in Eb. subst b. unfold key_le in *. destruct Hname as [E|[E E']]; [now rewrite <- (K E)|].
        unfold set_key in *. rewrite E in F. rewrite E'.
        change (index_str "OUTPUT" exec_order 0) with (Some 15%nat) in F. change (index_str "GROUP" exec_order 0) with (Some 14%nat).
        destruct (index_str (fst a) exec_order 0) as [k|] eqn:Ek; [|exact F].
        destruct (Nat.eq_dec k 15); [|lia]. exfalso. subst k.
        assert (fst a = "OUTPUT").
        { clear - Ek. unfold exec_order in Ek.
          repeat (cbn [index_str] in Ek;
                  match type of Ek with context [String.eqb ?u (fst a)] => destruct (String.eqb_spec u (fst a)); [congruence|] end). discriminate Ek. }
        apply Hne. transitivity SFwd; [apply slot_fwd; auto|symmetry; apply slot_fwd; auto].
    + rewrite rename_slots; auto.
    + intros a. rewrite winner_snoc. assert (Hh : hidden xs i = false).
      { unfold hidden, is_name. destruct (String.eqb_spec (fst i) "OUTPUT") as [E|E]; auto. destruct (existsb (is_name "GROUP") xs) eqn:Eg; auto.
        exfalso. destruct Hname as [Q|[_ Q]]; [|congruence]. rewrite E in Q.
        assert (W := proj1 (Hw x) Hx). unfold winner in W. replace (slot_of x) with SFwd in W by (symmetry; apply slot_fwd; auto).
        rewrite Eg in W. apply latest_some in W as [_ W]. unfold is_name in W. rewrite Q in W. discriminate W. }
      rewrite Hh. rewrite in_map_iff. split.
      * intros (b & <- & Hb). unfold rename. destruct (act_eqb b x) eqn:Eb; auto. right. split; [apply Hw, Hb|].
        apply Hother; auto. intros ->. rewrite act_eqb_refl in Eb. discriminate.
      * intros [->|[Ha Hne]].
        -- exists x. unfold rename. rewrite act_eqb_refl. auto.
        -- apply Hw in Ha. exists a. split; auto. unfold rename. destruct (act_eqb a x) eqn:Ea; auto. apply act_eqb_eq in Ea. subst. congruence.
    + destruct Hk as [Hk|Hk]; [left; now rewrite map_length|right].
      apply Forall_forall. intros b' Hb'. apply in_map_iff in Hb' as (b & <- & Hb). rewrite Forall_forall in Hk. unfold rename.
      destruct (act_eqb b x); auto. rewrite <- (replaces_known x i R). auto.
  - apply set_find_none in Hf. rewrite <- surjective_pairing, <- P in Hf.
    apply rbind_ok in H as (o' & Hs & H). apply rbind_ok in H as (lv & Hl & H). injection H as <-.
    apply set_sort_ok in Hs as [H1 H2]; [|constructor|constructor]. cbn [map app] in H2.
    assert (A := al_of_levels o' lv Hl). unfold set_inv. cbn [orig_order]. split; [now apply al_of_ok in A|]. split; auto. split; [|split].
    + eapply Permutation_NoDup; [apply Permutation_map, Permutation_sym, H2|]. rewrite map_app.
      apply NoDup_app_fwd. exact Hn. cbn. repeat constructor; auto.
      intros t Ht [<-|[]]. rewrite Forall_forall in Hf. apply in_map_iff in Ht as (b & Hb1 & Hb2). apply (Hf b); auto.
    + intros a. rewrite winner_snoc. assert (Hh : hidden xs i = false).
      { unfold hidden, is_name. destruct (String.eqb_spec (fst i) "OUTPUT") as [E|E]; auto. destruct (existsb (is_name "GROUP") xs) eqn:Eg; auto.
        exfalso. apply existsb_exists in Eg as (g & Hg & Eg). apply String.eqb_eq in Eg.
        destruct (winner_exists xs g Hg) as (b & Hb & Sb). apply Hw in Hb. rewrite Forall_forall in Hf. apply (Hf b Hb). rewrite Sb.
        transitivity SFwd; [apply slot_fwd; auto|symmetry; apply slot_fwd; auto]. }
      rewrite Hh. split.
      * intros Ha. rewrite H2 in Ha. apply in_app_iff in Ha as [Ha|[->|[]]]; auto. right. split; [apply Hw, Ha|].
        rewrite Forall_forall in Hf. auto.
      * intros Ha. rewrite H2, in_app_iff. destruct Ha as [->|[Ha _]]; [right; now left|]. left. now apply Hw.
    + apply al_of_success. eauto.
  - injection H as <-. apply set_find_ignore in Hf as (Hi & y & Hy & Ey). rewrite <- P in Hy.
    split; [exact Hok|]. split; auto. split; auto. split; auto. intros a. rewrite winner_snoc, Hw.
    replace (hidden xs i) with true; [reflexivity|]. symmetry. unfold hidden, is_name. rewrite Hi, String.eqb_refl. cbn [andb].
    apply existsb_exists. exists y. split; [apply winner_in, Hw, Hy|]. now apply String.eqb_eq.
Qed.
Lemma as_extend_inv xs : forall s ys s', set_inv s ys -> as_extend s xs = Ok s' -> set_inv s' (ys ++ xs).
Proof.
  unfold as_extend. induction xs as [|x xs IH]; intros s ys s' H Hr; cbn [rfold] in Hr.
  - injection Hr as <-. now rewrite app_nil_r.
  - apply rbind_ok in Hr as (m & Hm & Hr). apply (as_append_inv _ _ _ _ H) in Hm. apply (IH _ _ _ Hm) in Hr. now rewrite <- app_assoc in Hr.
Qed.
Lemma set_inv_empty : set_inv al_empty [].
Proof.
  unfold set_inv. cbn [orig_order al_empty]. split; [apply al_empty_ok|]. split; [constructor|]. split; [constructor|]. split; [|left; cbn; lia].
  intros a. split; [contradiction|]. intros H. apply winner_in in H. exact H.
Qed.
Lemma as_of_inv xs s : as_of xs = Ok s -> set_inv s xs.
Proof. intros H. apply (as_extend_inv xs _ [] _ set_inv_empty H). Qed.
Lemma set_inv_canonical s xs : set_inv s xs -> al_of (orig_order s) = Ok s.
Proof.
  intros (Hok & _ & _ & _ & Hk). assert (E : exists l, al_of (orig_order s) = Ok l).
  { apply al_of_success. split; auto. destruct Hok as [_ L]. eapply lrel_comparable, L. }
  destruct E as (l & E). rewrite E. apply al_of_ok in E as [E1 E2]. destruct Hok as [_ L].
  assert (action_levels l = action_levels s) by (eapply lrel_eq; eauto; apply leq_refl).
  destruct l as [lo ll], s as [so sl]. cbn in *. congruence.
Qed.
(** never fails on well-formed actions *)
Lemma known_wf a : known a = true -> wf_set a /\ set_key a <> None.
Proof.
  destruct a as [n v]. unfold known, wf_set, to_type, set_key. cbn [fst snd]. destruct (String.eqb_spec n "SET_FIELD") as [->|N].
  - destruct v; cbn [rbind]; try discriminate. intros _. split; eauto. vm_compute. discriminate.
  - cbn [rbind]. unfold action_dependancies. destruct (sassoc n name_deps) eqn:E; [|discriminate]. intros _. split; [intros Q; contradiction|].
    apply sassoc_in2 in E. apply (in_map fst) in E. cbn [fst] in E.
    assert (F : forallb (fun m => match index_str m exec_order 0 with Some _ => true | None => false end) (map fst name_deps) = true) by reflexivity.
    rewrite forallb_forall in F. apply F in E. destruct (index_str n exec_order 0); congruence.
Qed.
Lemma slots_comparable a b : known a = true -> known b = true -> slot_of a <> slot_of b -> comparable a b.
Proof.
  destruct a as [n v], b as [m w]. unfold comparable, act_cmp. cbn [fst snd]. intros Ha Hb Hs.
  destruct (String.compare n m) eqn:C; try discriminate. apply str_cmp_eq in C. subst m.
  unfold slot_of in Hs. destruct (String.eqb_spec n "SET_FIELD") as [->|N].
  - apply known_wf in Ha as [Ha _], Hb as [Hb _]. destruct (Ha eq_refl) as (f & c & E1), (Hb eq_refl) as (g & d & E2). cbn in E1, E2. subst.
    cbn. destruct (String.compare f g); discriminate.
  - congruence.
Qed.
Lemma as_append_total s xs i : set_inv s xs -> Forall (fun a => known a = true) xs -> known i = true -> exists s', as_append s i = Ok s'.
Proof.
  intros (Hok & Ho & Hn & Hw & Hk) Hx Hi. assert (P := al_ok_iter_perm _ _ Hok). unfold as_append.
  assert (Ko : Forall (fun a => known a = true) (orig_order s)).
  { apply Forall_forall. intros a Ha. apply Hw, winner_in in Ha. rewrite Forall_forall in Hx. auto. }
  destruct (set_find_total (fst i) (snd i) (al_iter s)) as (r & Hr).
  { rewrite <- surjective_pairing. now apply known_wf. }
  { rewrite <- P. eapply Forall_impl; [|exact Ko]. intros a Ha. now apply known_wf. }
  rewrite Hr. cbn [rbind]. destruct r as [[x|]|]; eauto.
  - apply set_find_some in Hr as (Hx' & Hs & Hname). rewrite <- P in Hx'.
    assert (R : replaces x (fst i, snd i)) by (split; [auto|exact Hname]). rewrite <- surjective_pairing in R.
    destruct (rename_al_ok x i s R Hn Hx' Hok) as (lv & E1 & E2 & _). rewrite E1, E2. eauto.
  - apply set_find_none in Hr. rewrite <- surjective_pairing, <- P in Hr.
    assert (Kf : Forall (fun a => known a = true) (orig_order s ++ [i])) by (apply Forall_app; auto).
    destruct (set_sort_total (orig_order s ++ [i])) with (acc := @nil (nat * action)) as (o & E).
    { eapply Forall_impl; [|exact Kf]. intros a Ha. now apply known_wf. }
    rewrite E. cbn [rbind]. apply set_sort_ok in E as [_ Po]; [|constructor|constructor]. cbn [map app] in Po.
    assert (Hn' : NoDup (map slot_of o)).
    { eapply Permutation_NoDup; [apply Permutation_map, Permutation_sym, Po|]. rewrite map_app. apply NoDup_app_fwd; [exact Hn|repeat constructor; auto|].
      intros t Ht [<-|[]]. rewrite Forall_forall in Hr. apply in_map_iff in Ht as (b & Hb1 & Hb2). apply (Hr b); auto. }
    rewrite <- Po in Kf. rewrite Forall_forall in Kf.
    assert (T : exists l, al_of o = Ok l).
    { apply al_of_total. intros a b Ha Hb. split; [auto|split; [auto|]].
      destruct (act_eq_dec a b) as [->|Hne]; [intros Q; assert (Q2 : act_cmp b b = Some Eq) by (now apply act_cmp_eq); congruence|].
      apply slots_comparable; auto. intros Q. apply Hne. clear - Hn' Ha Hb Q. induction o as [|c o IH]; [destruct Ha|].
      cbn [map] in Hn'. inversion Hn' as [|? ? H1 H2]; subst. destruct Ha as [->|Ha], Hb as [->|Hb]; auto.
      - exfalso. apply H1. rewrite Q. now apply in_map.
      - exfalso. apply H1. rewrite <- Q. now apply in_map. }
    destruct T as (l & T). assert (G : exists lv, rfold levels_append o [] = Ok lv).
    { unfold al_of, al_extend in T. assert (Gen : forall xs0 a l0, rfold al_append xs0 a = Ok l0 -> exists lv, rfold levels_append xs0 (action_levels a) = Ok lv).
      { induction xs0 as [|y xs0 IH]; intros a l0 H0; cbn [rfold] in *; [eauto|]. apply rbind_ok in H0 as (m & Hm & H0).
        unfold al_append in Hm. apply rbind_ok in Hm as (lv & Hlv & Hm). injection Hm as <-. rewrite Hlv. cbn [rbind]. apply (IH _ _ H0). }
      apply (Gen _ _ _ T). }
    destruct G as (lv & G). rewrite G. cbn [rbind]. eauto.
Qed.
Lemma as_of_total xs : Forall (fun a => known a = true) xs -> exists s, as_of xs = Ok s.
Proof.
  intros H. assert (G : forall ys s, set_inv s ys -> Forall (fun a => known a = true) ys -> exists s', as_extend s xs = Ok s').
  { unfold as_extend. induction xs as [|x xs IH]; intros ys s Hs Hy; cbn [rfold]; eauto. inversion H as [|? ? H1 H2]; subst.
    destruct (as_append_total s ys x Hs Hy H1) as (s' & E). rewrite E. cbn [rbind]. apply (IH H2 (ys ++ [x])).
    - eapply as_append_inv; eauto.
    - apply Forall_app; auto. }
  apply (G [] al_empty set_inv_empty). constructor.
Qed.
