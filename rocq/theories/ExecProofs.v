(** Commutation of independent actions on packets. *)
From Verif Require Export ActionProofs SpecExec.
Local Open Scope string_scope.
Local Open Scope list_scope.
Local Open Scope Z_scope.

(** ** Equality of packets and of emitted copies *)
Lemma same_pkt_refl p : same_pkt p p.
Proof. repeat split. Qed.
Lemma same_pkt_sym p q : same_pkt p q -> same_pkt q p.
Proof. intros (H1 & H2 & H3 & H4 & H5). repeat split; auto. Qed.
Lemma same_pkt_trans p q r : same_pkt p q -> same_pkt q r -> same_pkt p r.
Proof.
  intros (H1 & H2 & H3 & H4 & H5) (K1 & K2 & K3 & K4 & K5). split; [|split; [|split; [|split]]]; try congruence.
Qed.
Lemma same_copy_refl c : same_copy c c.
Proof. split; auto using same_pkt_refl. Qed.
Lemma same_copies_refl l : Forall2 same_copy l l.
Proof. induction l; constructor; auto using same_copy_refl. Qed.
Lemma same_copies_sym l r : Forall2 same_copy l r -> Forall2 same_copy r l.
Proof. induction 1 as [|x y l r [H1 H2] H IH]; constructor; auto. split; auto using same_pkt_sym. Qed.
Lemma same_copies_trans l m r : Forall2 same_copy l m -> Forall2 same_copy m r -> Forall2 same_copy l r.
Proof.
  intros H. revert r. induction H as [|x y l m [H1 H2] H IH]; intros r K; inversion K as [|? z ? r' [K1 K2] K3]; subst; constructor; auto.
  split; [congruence|eapply same_pkt_trans; eauto].
Qed.
Lemma forall2_perm {A B} (R : A -> B -> Prop) l r r' : Forall2 R l r -> Permutation r r' -> exists l', Permutation l l' /\ Forall2 R l' r'.
Proof.
  intros H P. revert l H. induction P as [|x r r' P IH|x y r|r r1 r2 P1 IH1 P2 IH2]; intros l H.
  - inversion H; subst. exists []. split; auto.
  - inversion H as [|a ? l0 ? Ha Hl]; subst. destruct (IH l0 Hl) as (l' & Pl & F). exists (a :: l'). split; auto.
  - inversion H as [|a ? l0 ? Ha Hl]; subst. inversion Hl as [|b ? l1 ? Hb Hl']; subst.
    exists (b :: a :: l1). split; [apply perm_swap|repeat constructor; auto].
  - destruct (IH1 l H) as (l1 & Q1 & F1). destruct (IH2 l1 F1) as (l2 & Q2 & F2). exists l2. split; auto. eapply Permutation_trans; eauto.
Qed.
Lemma same_outs_refl l : same_outs l l.
Proof. exists l. split; auto using same_copies_refl. Qed.
Lemma same_outs_perm l r : Permutation l r -> same_outs l r.
Proof. intros P. exists r. split; auto using same_copies_refl. Qed.
Lemma same_outs_copies l r : Forall2 same_copy l r -> same_outs l r.
Proof. intros F. exists l. split; auto. Qed.
Lemma same_outs_trans l m r : same_outs l m -> same_outs m r -> same_outs l r.
Proof.
  intros (c & P1 & F1) (d & P2 & F2). destruct (forall2_perm _ _ _ _ F1 P2) as (e & P3 & F3).
  exists e. split; [eapply Permutation_trans; eauto|eapply same_copies_trans; eauto].
Qed.
Lemma same_outs_sym l r : same_outs l r -> same_outs r l.
Proof.
  intros (c & P & F). apply same_outs_trans with c; [apply same_outs_copies; now apply same_copies_sym|].
  apply same_outs_perm. now apply Permutation_sym.
Qed.
Lemma same_outs_app a b c d : same_outs a b -> same_outs c d -> same_outs (a ++ c) (b ++ d).
Proof.
  intros (x & P1 & F1) (y & P2 & F2). exists (x ++ y). split; [now apply Permutation_app|now apply Forall2_app].
Qed.

(** ** Actions as effects *)
Inductive eff :=
| EField (m : mfield) (v : Z) | EPushVlan (n : Z) | EPopVlan | EPushMpls (n : Z) | EPopMpls (n : Z)
| EPushPbb (n : Z) | EPopPbb | ECopyOut | ECopyIn | ESetM (n : Z) | EDecM | ESetN (n : Z) | EDecN | EQueue (n : Z) | ENop.
Definition set_m (m : mfield) (v : Z) (p : pkt) : pkt :=
  match m with
  | FDst => with_top (fun fr => Frame v (f_src fr) (f_type fr) (f_isid fr) (f_ipcp fr) (f_vlans fr) (f_mpls fr)) p
  | FSrc => with_top (fun fr => Frame (f_dst fr) v (f_type fr) (f_isid fr) (f_ipcp fr) (f_vlans fr) (f_mpls fr)) p
  | FType => with_top (with_type v) p
  | FVid => with_top (with_vlans (on_head (fun t => Vlan (v_tpid t) v (v_pcp t)))) p
  | FPcp => with_top (with_vlans (on_head (fun t => Vlan (v_tpid t) (v_vid t) v))) p
  | FLabel => with_top (with_mpls (on_head (fun m => Mpls v (m_tc m) (m_bos m) (m_ttl m)))) p
  | FTc => with_top (with_mpls (on_head (fun m => Mpls (m_label m) v (m_bos m) (m_ttl m)))) p
  | FBos => with_top (with_mpls (on_head (fun m => Mpls (m_label m) (m_tc m) v (m_ttl m)))) p
  | FIsid => match p_inner p with
             | [] => p
             | _ => with_top (fun fr => Frame (f_dst fr) (f_src fr) (f_type fr) v (f_ipcp fr) (f_vlans fr) (f_mpls fr)) p
             end
  | FFlat g => Pkt (p_top p) (p_inner p) (fun h => if String.eqb h g then v else p_flat p h) (p_ttl p) (p_queue p)
  end.
Definition eff_of (a : action) : eff :=
  match kind (fst a) with
  | KSet => match snd a with VSet f v => EField (which f) v | _ => ENop end
  | KPushVlan => EPushVlan (num (snd a))
  | KPopVlan => EPopVlan
  | KPushMpls => EPushMpls (num (snd a))
  | KPopMpls => EPopMpls (num (snd a))
  | KPushPbb => EPushPbb (num (snd a))
  | KPopPbb => EPopPbb
  | KCopyOut => ECopyOut
  | KCopyIn => ECopyIn
  | KSetMplsTtl => ESetM (num (snd a))
  | KDecMplsTtl => EDecM
  | KSetNwTtl => ESetN (num (snd a))
  | KDecNwTtl => EDecN
  | KQueue => EQueue (num (snd a))
  | KOutput | KGroup | KOther => ENop
  end.
Definition do_eff (e : eff) (p : pkt) : pkt :=
  match e with
  | EField m v => set_m m v p
  | EPushVlan n => push_vlan n p
  | EPopVlan => pop_vlan p
  | EPushMpls n => push_mpls n p
  | EPopMpls n => pop_mpls n p
  | EPushPbb n => push_pbb n p
  | EPopPbb => pop_pbb p
  | ECopyOut => copy_ttl_out p
  | ECopyIn => copy_ttl_in p
  | ESetM n => with_top (with_mpls (on_head (set_ttl_of n))) p
  | EDecM => with_top (with_mpls (on_head (fun m => set_ttl_of (dec (m_ttl m)) m))) p
  | ESetN n => with_ttl n p
  | EDecN => with_ttl (dec (p_ttl p)) p
  | EQueue n => Pkt (p_top p) (p_inner p) (p_flat p) (p_ttl p) (Some n)
  | ENop => p
  end.
Lemma rewrite_eff a p : rewrite_pkt a p = do_eff (eff_of a) p.
Proof. unfold rewrite_pkt, eff_of. destruct (kind (fst a)); try reflexivity. destruct (snd a); reflexivity. Qed.

Lemma do_eff_cong e p q : same_pkt p q -> same_pkt (do_eff e p) (do_eff e q).
Proof.
  destruct p as [t i f n q0], q as [t' i' f' n' q']. intros (H1 & H2 & H3 & H4 & H5).
  cbn [p_top p_inner p_flat p_ttl p_queue] in *. subst t' i' n' q'. destruct e as [m v| | | | | | | | | | | | | | ].
  - destruct m; cbn [do_eff set_m]; try (repeat split; exact H3).
    + cbn [p_inner]. destruct i; repeat split; exact H3.
    + repeat split. cbn [p_flat]. intros h. destruct (String.eqb h f0); auto.
  - repeat split; exact H3.
  - repeat split; exact H3.
  - repeat split; exact H3.
  - cbn [do_eff]. unfold pop_mpls. cbn [p_top]. destruct (f_mpls t); repeat split; exact H3.
  - repeat split; exact H3.
  - cbn [do_eff]. unfold pop_pbb. cbn [p_inner]. destruct i; repeat split; exact H3.
  - repeat split; exact H3.
  - cbn [do_eff]. unfold copy_ttl_in. cbn [p_top]. destruct (f_mpls t) as [|? [|]]; repeat split; exact H3.
  - repeat split; exact H3.
  - repeat split; exact H3.
  - repeat split; exact H3.
  - repeat split; exact H3.
  - repeat split; exact H3.
  - repeat split; exact H3.
Qed.
Lemma rewrite_cong a p q : same_pkt p q -> same_pkt (rewrite_pkt a p) (rewrite_pkt a q).
Proof. rewrite !rewrite_eff. apply do_eff_cong. Qed.

(** ** Which effects commute *)
Definition mfield_eqb (a b : mfield) : bool :=
  match a, b with
  | FDst, FDst | FSrc, FSrc | FType, FType | FVid, FVid | FPcp, FPcp | FLabel, FLabel | FTc, FTc | FBos, FBos | FIsid, FIsid => true
  | FFlat f, FFlat g => String.eqb f g
  | _, _ => false
  end.
Definition confl (a b : eff) : bool :=
  match a, b with
  | EField m _, EField m' _ => mfield_eqb m m'
  | EField (FVid | FPcp) _, (EPushVlan _ | EPopVlan) => true
  | EField (FLabel | FTc | FBos | FType) _, (EPushMpls _ | EPopMpls _) => true
  | EPushVlan _, (EPushVlan _ | EPopVlan) => true
  | (EPushMpls _ | EPopMpls _), (EPushMpls _ | EPopMpls _ | ECopyOut | ECopyIn | ESetM _ | EDecM | ESetN _ | EDecN) => true
  | ECopyOut, (ECopyIn | ESetM _ | EDecM | ESetN _ | EDecN) => true
  | ECopyIn, (ESetM _ | EDecM | ESetN _ | EDecN) => true
  | ESetM _, (ESetM _ | EDecM) => true
  | ESetN _, (ESetN _ | EDecN) => true
  | EQueue _, EQueue _ => true
  | EPushPbb _, (EPushPbb _ | EPopPbb) => true
  | (EPushPbb _ | EPopPbb), EField (FDst | FSrc | FType | FVid | FPcp | FLabel | FTc | FBos | FIsid) _ => true
  | (EPushPbb _ | EPopPbb), (EPushVlan _ | EPopVlan | EPushMpls _ | EPopMpls _ | ECopyOut | ECopyIn | ESetM _ | EDecM) => true
  | _, _ => false
  end.
Definition conflict (a b : eff) : bool := confl a b || confl b a.

Ltac crush_pkt :=
  cbn [do_eff set_m]; unfold push_vlan, pop_vlan, push_mpls, pop_mpls, push_pbb, pop_pbb, copy_ttl_out, copy_ttl_in, with_ttl, with_top,
    with_vlans, with_mpls, with_type, set_ttl_of, on_head, same_pkt;
  cbn [p_top p_inner p_flat p_ttl p_queue f_dst f_src f_type f_isid f_ipcp f_vlans f_mpls v_tpid v_vid v_pcp m_label m_tc m_bos m_ttl tl].
Lemma flat_swap f g v w (o : string -> Z) : String.eqb f g = false ->
  forall h, (if String.eqb h g then w else (if String.eqb h f then v else o h)) =
            (if String.eqb h f then v else (if String.eqb h g then w else o h)).
Proof.
  intros H h. destruct (String.eqb_spec h g), (String.eqb_spec h f); auto. subst. rewrite String.eqb_refl in H. discriminate.
Qed.
Lemma commute a b p : conflict a b = false -> same_pkt (do_eff b (do_eff a p)) (do_eff a (do_eff b p)).
Proof.
  destruct p as [[ed es et ei ec vs ms] inn fl tt qu]. unfold conflict. rewrite orb_false_iff. intros [H1 H2].
  destruct a as [m v|n| |n|n|n| | | |n| |n| |n| ], b as [m' v'|n'| |n'|n'|n'| | | |n'| |n'| |n'| ];
    try discriminate; try (repeat split; fail);
    repeat match goal with m : mfield |- _ => destruct m; try discriminate; try (repeat split; fail) end;
    try (destruct vs as [|v1 vs]; try (repeat split; fail));
    try (destruct ms as [|m1 [|m2 ms]]; try (repeat split; fail));
    try (destruct inn as [|f1 [|f2 inn]]; try (repeat split; fail)).
  all: try (repeat split; cbn [do_eff set_m p_flat]; apply flat_swap; exact H1).
Qed.

(** ** The dependency table covers every conflict, PBB nesting aside *)
(** Actions on headers that PUSH_PBB hides and POP_PBB uncovers. *)
Definition hidden_by_pbb (a : action) : bool :=
  match eff_of a with
  | EField (FVid | FPcp | FLabel | FTc | FBos) _ => true
  | EPopVlan | EPushMpls _ | EPopMpls _ | ECopyOut | ECopyIn | ESetM _ | EDecM => true
  | _ => false
  end.
Definition is_pbb (a : action) : bool := match eff_of a with EPushPbb _ | EPopPbb => true | _ => false end.
Definition pbb_pair (a b : action) : bool := (is_pbb a && hidden_by_pbb b) || (is_pbb b && hidden_by_pbb a).

Definition known_types : list atype := map (fun x => TName (fst x)) name_deps ++ map (fun x => TSet (fst x)) field_deps.
Definition sample (t : atype) : action := match t with TName n => (n, VNone) | TSet f => ("SET_FIELD", VSet f 0) end.
Lemma sassoc_in {V} k (l : list (string * V)) v : sassoc k l = Some v -> In k (map fst l).
Proof.
  induction l as [|[k' v'] l IH]; cbn; [discriminate|]. destruct (String.eqb_spec k' k); [subst; auto|right; auto].
Qed.
Lemma known_type_in t : (exists l, action_dependancies t = Ok l) -> In t known_types.
Proof.
  intros (l & H). unfold action_dependancies in H. unfold known_types. apply in_or_app. destruct t as [n|f].
  - left. destruct (sassoc n name_deps) eqn:E; [|discriminate]. apply sassoc_in in E. rewrite in_map_iff in *.
    destruct E as (x & <- & Hx). eauto.
  - right. destruct (sassoc f field_deps) eqn:E; [|discriminate]. apply sassoc_in in E. rewrite in_map_iff in *.
    destruct E as (x & <- & Hx). eauto.
Qed.
Definition pair_fine (t u : atype) : bool :=
  let a := sample t in let b := sample u in
  atype_eqb t (TName "SET_FIELD") || atype_eqb u (TName "SET_FIELD") ||
  match depends a b with
  | Ok false => negb (conflict (eff_of a) (eff_of b)) || pbb_pair a b
  | _ => true
  end.
Lemma all_fine : forallb (fun t => forallb (pair_fine t) known_types) known_types = true.
Proof. vm_compute. reflexivity. Qed.

(** Everything used above depends on the type only. *)
Definition shape (e : eff) : eff :=
  match e with
  | EField m _ => EField m 0 | EPushVlan _ => EPushVlan 0 | EPushMpls _ => EPushMpls 0 | EPopMpls _ => EPopMpls 0
  | EPushPbb _ => EPushPbb 0 | ESetM _ => ESetM 0 | ESetN _ => ESetN 0 | EQueue _ => EQueue 0 | x => x
  end.
Lemma conflict_shape a b : conflict a b = conflict (shape a) (shape b).
Proof. destruct a as [m v|n| |n|n|n| | | |n| |n| |n| ], b as [m' v'|n'| |n'|n'|n'| | | |n'| |n'| |n'| ]; reflexivity. Qed.
Lemma eff_sample a t : to_type a = Ok t -> shape (eff_of a) = shape (eff_of (sample t)).
Proof.
  unfold to_type. destruct a as [n v]. cbn [fst snd]. destruct (String.eqb_spec n "SET_FIELD").
  - subst. destruct v; try discriminate. intros [= <-]. reflexivity.
  - intros [= <-]. unfold eff_of, sample. cbn [fst snd]. destruct (kind n) eqn:E; try reflexivity.
    exfalso. apply n0. unfold kind in E. destruct (String.eqb_spec n "SET_FIELD"); auto.
    repeat (match type of E with (if ?c then _ else _) = _ => destruct c end; try discriminate).
Qed.
Lemma hidden_shape a b : shape (eff_of a) = shape (eff_of b) -> hidden_by_pbb a = hidden_by_pbb b /\ is_pbb a = is_pbb b.
Proof.
  unfold hidden_by_pbb, is_pbb. destruct (eff_of a) as [m v|n| |n|n|n| | | |n| |n| |n| ], (eff_of b) as [m' v'|n'| |n'|n'|n'| | | |n'| |n'| |n'| ];
    cbn [shape]; intros H; try discriminate; try (split; reflexivity). assert (m = m') by congruence. subst. split; reflexivity.
Qed.
Lemma depends_sample a b t u : to_type a = Ok t -> to_type b = Ok u -> depends a b = depends (sample t) (sample u).
Proof.
  intros Ha Hb. assert (S1 : to_type (sample t) = Ok t /\ (String.eqb (fst a) "SET_FIELD" = String.eqb (fst (sample t)) "SET_FIELD")).
  { unfold to_type in Ha. destruct (String.eqb_spec (fst a) "SET_FIELD") as [E|E].
    - destruct (snd a); try discriminate. injection Ha as <-. split; reflexivity.
    - injection Ha as <-. unfold to_type, sample. cbn [fst snd]. destruct (String.eqb_spec (fst a) "SET_FIELD"); [contradiction|]. split; reflexivity. }
  assert (S2 : to_type (sample u) = Ok u /\ (String.eqb (fst b) "SET_FIELD" = String.eqb (fst (sample u)) "SET_FIELD")).
  { unfold to_type in Hb. destruct (String.eqb_spec (fst b) "SET_FIELD") as [E|E].
    - destruct (snd b); try discriminate. injection Hb as <-. split; reflexivity.
    - injection Hb as <-. unfold to_type, sample. cbn [fst snd]. destruct (String.eqb_spec (fst b) "SET_FIELD"); [contradiction|]. split; reflexivity. }
  unfold depends. rewrite Ha, Hb, (proj1 S1), (proj1 S2), (proj2 S1), (proj2 S2). reflexivity.
Qed.
Lemma to_type_not_sf a : to_type a <> Ok (TName "SET_FIELD").
Proof.
  unfold to_type. destruct (String.eqb_spec (fst a) "SET_FIELD"); [destruct (snd a); discriminate|]. intros [= H]. contradiction.
Qed.
Lemma indep_no_conflict a b : depends a b = Ok false -> pbb_pair a b = false -> conflict (eff_of a) (eff_of b) = false.
Proof.
  intros Hd Hp. assert (Hd' := Hd). unfold depends in Hd.
  apply rbind_ok in Hd as (t & Ht & Hd). apply rbind_ok in Hd as (u & Hu & Hd).
  apply rbind_ok in Hd as (dt & Hdt & Hd). apply rbind_ok in Hd as (du & Hdu & _).
  pose proof (known_type_in t (ex_intro _ _ Hdt)) as It. pose proof (known_type_in u (ex_intro _ _ Hdu)) as Iu.
  pose proof all_fine as F. rewrite forallb_forall in F. specialize (F _ It). rewrite forallb_forall in F. specialize (F _ Iu).
  rewrite conflict_shape, (eff_sample _ _ Ht), (eff_sample _ _ Hu), <- conflict_shape.
  rewrite (depends_sample _ _ _ _ Ht Hu) in Hd'.
  destruct (hidden_shape _ _ (eff_sample _ _ Ht)) as [A1 A2]. destruct (hidden_shape _ _ (eff_sample _ _ Hu)) as [B1 B2].
  unfold pbb_pair in Hp. rewrite A1, A2, B1, B2 in Hp. fold (pbb_pair (sample t) (sample u)) in Hp.
  assert (Nt : t <> TName "SET_FIELD") by (intros ->; now apply (to_type_not_sf a)).
  assert (Nu : u <> TName "SET_FIELD") by (intros ->; now apply (to_type_not_sf b)).
  unfold pair_fine in F. rewrite Hd', Hp, orb_false_r in F.
  assert (T1 : atype_eqb t (TName "SET_FIELD") = false).
  { destruct t as [n|f]; [cbn [atype_eqb]; destruct (String.eqb_spec n "SET_FIELD"); [subst; congruence|auto]|reflexivity]. }
  assert (T2 : atype_eqb u (TName "SET_FIELD") = false).
  { destruct u as [n|f]; [cbn [atype_eqb]; destruct (String.eqb_spec n "SET_FIELD"); [subst; congruence|auto]|reflexivity]. }
  rewrite T1, T2 in F. cbn [orb] in F. now apply negb_true_iff.
Qed.

(** ** Emission *)
Section Out.
  Context (pick : list (list action) -> nat).
  Notation emit := (emit pick).
  Notation run_out := (run_out pick).
  Lemma emit_group n t bs p : emit (n, VGroup t bs) p =
    match kind n with
    | KGroup => if String.eqb t "all" || String.eqb t "indirect" then List.concat (map (fun b => run_out b p) bs)
                else nth (pick bs) (map (fun b => run_out b p) bs) []
    | _ => []
    end.
  Proof.
    unfold SpecExec.emit. cbn [fst snd emit_val]. destruct (kind n); try reflexivity.
    match goal with |- context [List.concat ?X] => assert (E : X = map (fun b => run_out b p) bs) end.
    { generalize bs. clear bs. induction bs as [|b bs IH]; cbn [map]; [reflexivity|]. f_equal; [|exact IH].
      clear IH. revert p. induction b as [|[n' v'] b IHb]; intros p; [reflexivity|].
      cbn [SpecExec.run_out]. unfold SpecExec.emit. cbn [fst snd]. f_equal. apply IHb. }
    rewrite E. reflexivity.
  Qed.
  Lemma emit_cong a p q : same_pkt p q -> Forall2 same_copy (emit a p) (emit a q).
  Proof.
    destruct a as [n v]. revert n p q. induction v as [|m|f x|t bs IH] using aval_ind'; intros n p q H.
    - constructor.
    - unfold SpecExec.emit. cbn [fst snd emit_val]. destruct (kind n); try constructor; [split; auto|constructor].
    - constructor.
    - rewrite !emit_group. destruct (kind n); try constructor.
      assert (G : Forall2 (Forall2 same_copy) (map (fun b => run_out b p) bs) (map (fun b => run_out b q) bs)).
      { induction IH as [|b bs Hb Hbs IHbs]; cbn [map]; constructor; auto. clear - Hb H.
        revert p q H. induction Hb as [|[n' v'] b Hv Hb IHb]; intros p q H; cbn [SpecExec.run_out]; [constructor|].
        apply Forall2_app; [apply Hv, H|]. apply IHb, rewrite_cong, H. }
      destruct (_ || _).
      + clear - G. induction G; cbn; [constructor|]. now apply Forall2_app.
      + clear - G. generalize (pick bs). induction G as [|x y l r Hx Hl IHl]; intros [|k]; cbn; try constructor; auto.
  Qed.
  Lemma run_cong l : forall p q, same_pkt p q -> same_pkt (run_pkt l p) (run_pkt l q) /\ Forall2 same_copy (run_out l p) (run_out l q).
  Proof.
    induction l as [|a l IH]; intros p q H; cbn [run_pkt SpecExec.run_out]; [split; auto|].
    destruct (IH _ _ (rewrite_cong a p q H)) as [H1 H2]. split; auto. apply Forall2_app; auto. now apply emit_cong.
  Qed.
  Lemma run_pkt_app l r p : run_pkt (l ++ r) p = run_pkt r (run_pkt l p).
  Proof. revert p. induction l; intros p; cbn; auto. Qed.
  Lemma run_out_app l r p : run_out (l ++ r) p = run_out l p ++ run_out r (run_pkt l p).
  Proof. revert p. induction l as [|a l IH]; intros p; cbn; auto. now rewrite IH, app_assoc. Qed.

  Lemma same_effect_refl l : same_effect pick l l.
  Proof. intros p. split; [apply same_pkt_refl|apply same_outs_refl]. Qed.
  Lemma same_effect_trans l m r : same_effect pick l m -> same_effect pick m r -> same_effect pick l r.
  Proof.
    intros H K p. destruct (H p), (K p). split; [eapply same_pkt_trans|eapply same_outs_trans]; eauto.
  Qed.
  Lemma same_effect_sym l r : same_effect pick l r -> same_effect pick r l.
  Proof. intros H p. destruct (H p). split; [now apply same_pkt_sym|now apply same_outs_sym]. Qed.
  Lemma same_effect_app a b c d : same_effect pick a b -> same_effect pick c d -> same_effect pick (a ++ c) (b ++ d).
  Proof.
    intros H K p. destruct (H p) as [H1 H2]. destruct (K (run_pkt a p)) as [K1 K2].
    rewrite !run_pkt_app, !run_out_app. destruct (run_cong d _ _ H1) as [L1 L2]. split.
    - eapply same_pkt_trans; [exact K1|exact L1].
    - apply same_outs_app; auto. eapply same_outs_trans; [exact K2|]. now apply same_outs_copies.
  Qed.

  (** An action that emits never rewrites. *)
  Lemma emit_or_rewrite a p : emit a p <> [] -> eff_of a = ENop.
  Proof.
    destruct a as [n v]. unfold SpecExec.emit, eff_of. cbn [fst snd]. destruct v; cbn [emit_val]; try congruence.
    - destruct (kind n); congruence.
    - destruct (kind n); congruence.
  Qed.
  (** The table orders every emitting action after every rewriting one. *)
  Definition emits (n : string) : bool := match kind n with KOutput | KGroup => true | _ => false end.
  Lemma emits_names n : emits n = true -> n = "OUTPUT" \/ n = "GROUP".
  Proof.
    unfold emits, kind. repeat (match goal with |- context [if ?c then _ else _] => destruct c eqn:?; try discriminate end);
      intros _; [left|right]; now apply String.eqb_eq.
  Qed.
  Lemma emit_nil a p : emits (fst a) = false -> emit a p = [].
  Proof. destruct a as [n v]. unfold emits, SpecExec.emit. cbn [fst snd]. destruct v; cbn [emit_val]; auto; destruct (kind n); congruence. Qed.
  Definition emit_sep (t u : atype) : bool :=
    match t with
    | TName n => negb (emits n) ||
        match u with
        | TName m => emits m || String.eqb m "SET_FIELD" || match depends (sample t) (sample u) with Ok false => false | _ => true end
        | TSet _ => match depends (sample t) (sample u) with Ok false => false | _ => true end
        end
    | TSet _ => true
    end.
  Lemma all_emit_sep : forallb (fun t => forallb (emit_sep t) known_types) known_types = true.
  Proof. vm_compute. reflexivity. Qed.
  Lemma indep_emit a b : depends a b = Ok false -> emits (fst a) = true -> emits (fst b) = true.
  Proof.
    intros Hd He. assert (Hd' := Hd). unfold depends in Hd.
    apply rbind_ok in Hd as (t & Ht & Hd). apply rbind_ok in Hd as (u & Hu & Hd).
    apply rbind_ok in Hd as (dt & Hdt & Hd). apply rbind_ok in Hd as (du & Hdu & _).
    pose proof (known_type_in t (ex_intro _ _ Hdt)) as It. pose proof (known_type_in u (ex_intro _ _ Hdu)) as Iu.
    pose proof all_emit_sep as F. rewrite forallb_forall in F. specialize (F _ It). rewrite forallb_forall in F. specialize (F _ Iu).
    rewrite (depends_sample _ _ _ _ Ht Hu) in Hd'.
    assert (Na : fst a <> "SET_FIELD") by (apply emits_names in He as [-> | ->]; discriminate).
    unfold to_type in Ht. destruct (String.eqb_spec (fst a) "SET_FIELD"); [contradiction|]. injection Ht as <-.
    unfold emit_sep in F. rewrite He, Hd' in F. cbn [negb orb] in F.
    unfold to_type in Hu. destruct (String.eqb_spec (fst b) "SET_FIELD") as [Eb|Eb].
    - destruct (snd b); try discriminate Hu. injection Hu as <-. discriminate F.
    - injection Hu as <-. destruct (emits (fst b)); auto. destruct (String.eqb_spec (fst b) "SET_FIELD"); [contradiction|discriminate F].
  Qed.
  Lemma emits_nop a : emits (fst a) = true -> eff_of a = ENop.
  Proof. unfold emits, eff_of. destruct (kind (fst a)); congruence. Qed.

  Lemma swap_effect a b : depends a b = Ok false -> pbb_pair a b = false -> same_effect pick [a; b] [b; a].
  Proof.
    intros Hd Hp p. cbn [run_pkt SpecExec.run_out]. rewrite !app_nil_r. split.
    - rewrite !rewrite_eff. apply commute. now apply indep_no_conflict.
    - destruct (emits (fst a)) eqn:Ea.
      + pose proof (indep_emit a b Hd Ea) as Eb. rewrite !rewrite_eff, (emits_nop a Ea), (emits_nop b Eb). cbn [do_eff].
        apply same_outs_perm, Permutation_app_comm.
      + destruct (emits (fst b)) eqn:Eb.
        * pose proof (indep_emit b a (depends_sym_ok _ _ _ Hd) Eb). congruence.
        * rewrite !emit_nil by assumption. apply same_outs_refl.
  Qed.
  (** lists none of whose pairs nests under PBB *)
  Definition no_pbb_pair (l : list action) : Prop := forall a b, In a l -> In b l -> pbb_pair a b = false.
  Lemma teq_effect l r : teq l r -> no_pbb_pair l -> same_effect pick l r.
  Proof.
    induction 1 as [l|l a b r H|l m r H1 IH1 H2 IH2]; intros Hn.
    - apply same_effect_refl.
    - apply same_effect_app; [apply same_effect_refl|].
      apply (same_effect_app [a; b] [b; a] r r); [|apply same_effect_refl]. apply swap_effect; auto.
      apply Hn; apply in_or_app; right; cbn; auto.
    - eapply same_effect_trans; [apply IH1, Hn|]. apply IH2. intros a b Ha Hb.
      apply Hn; rewrite (ateq_perm _ _ H1); assumption.
  Qed.
End Out.
