(** Proofs about the headerspace normaliser. *)
From Coq Require Import Permutation ZifyBool ZifyNat.
From Verif Require Import Hspace SpecHspace Spec WildcardProofs TreeProofs.
Local Open Scope list_scope.
Local Open Scope Z_scope.
Local Opaque NB.

(** ** Sets of numbers *)
Lemma zin_in x l : zin x l = true <-> In x l.
Proof. unfold zin. rewrite existsb_exists. split; [intros (y & H & E); apply Z.eqb_eq in E; now subst|intros H; exists x; split; [exact H|apply Z.eqb_refl]]. Qed.
Lemma zin_not x l : zin x l = false <-> ~ In x l.
Proof. rewrite <- zin_in. destruct (zin x l); split; congruence. Qed.
Lemma zadd_in l x y : In y (zadd l x) <-> In y l \/ y = x.
Proof.
  unfold zadd. destruct (zin x l) eqn:E; [apply zin_in in E; split; [auto|intros [H| ->]; auto]|].
  rewrite in_app_iff. cbn [In]. split; intros [H|H]; auto. destruct H as [H|[]]; auto.
Qed.
Lemma zset_in l y : In y (zset l) <-> In y l.
Proof.
  unfold zset. enough (H : forall acc, In y (fold_left zadd l acc) <-> In y acc \/ In y l) by (rewrite H; cbn [In]; tauto).
  induction l as [|x l IH]; intros acc; cbn [fold_left In]; [tauto|]. rewrite IH, zadd_in. split; intros H; intuition.
Qed.
Lemma zminus_in a b y : In y (zminus a b) <-> In y a /\ ~ In y b.
Proof. unfold zminus. rewrite filter_In, negb_true_iff, zin_not. tauto. Qed.
Lemma zseteq_iff a b : zseteq a b = true <-> forall x, In x a <-> In x b.
Proof.
  unfold zseteq. rewrite andb_true_iff, !forallb_forall. split.
  - intros [A B] x. split; intros H; [apply A in H|apply B in H]; now apply zin_in in H.
  - intros H. split; intros x Hx; apply zin_in; now apply H.
Qed.

(** ** shim equality is an equivalence *)
Lemma oeqb_iff (a b : option Z) : opt_eqb Z.eqb a b = true <-> a = b.
Proof. destruct a as [a|], b as [b|]; cbn [opt_eqb]; try (split; congruence). rewrite Z.eqb_eq. split; congruence. Qed.
Lemma shim_eqb_iff a b : shim_eqb a b = true <->
  (szero a = true /\ szero b = true) \/ (szero a = false /\ szero b = false /\ sinc a = sinc b /\ forall x, In x (sexc a) <-> In x (sexc b)).
Proof.
  unfold shim_eqb. destruct (szero a), (szero b); cbn [orb andb].
  - split; auto.
  - split; [discriminate|intros [[_ H]|[H _]]; discriminate].
  - split; [discriminate|intros [[H _]|(_ & H & _)]; discriminate].
  - rewrite andb_true_iff, oeqb_iff, zseteq_iff. split; [intros [A B]; right; auto|intros [[H _]|(_ & _ & A & B)]; [discriminate|auto]].
Qed.
Lemma shim_eqb_refl a : shim_eqb a a = true.
Proof. apply shim_eqb_iff. destruct (szero a); [left; auto|right]. split; [|split; [|split]]; auto. intros x. reflexivity. Qed.
Lemma shim_eqb_sym a b : shim_eqb a b = true -> shim_eqb b a = true.
Proof.
  rewrite !shim_eqb_iff. intros [[A B]|(A & B & C & D)]; [left; auto|right]. split; [|split; [|split]]; auto. intros x. now rewrite D.
Qed.
Lemma shim_eqb_trans a b c : shim_eqb a b = true -> shim_eqb b c = true -> shim_eqb a c = true.
Proof.
  rewrite !shim_eqb_iff. intros [[A B]|(A & B & C & D)] [[A' B']|(A' & B' & C' & D')]; try congruence; [left; auto|right].
  split; [|split; [|split]]; auto; [congruence|]. intros x. now rewrite D.
Qed.
Lemma shim_eqb_zero a b : shim_eqb a b = true -> szero a = szero b.
Proof. rewrite shim_eqb_iff. intros [[A B]|(A & B & _)]; congruence. Qed.

(** ** What a shim stands for *)
Definition sub (a b : Z) : Prop := forall p, accepts a p -> accepts b p.
Definition maxima (e X : list Z) : Prop :=
  (forall x, In x e -> In x X) /\ (forall x, In x X -> exists y, In y e /\ sub x y) /\ (forall x y, In x e -> In y e -> sub x y -> x = y).
Definition rep (s : shim) (I0 X : list Z) : Prop :=
  (szero s = true /\ dead I0 X) \/
  (szero s = false /\ ~ dead I0 X /\ exists w, sinc s = Some w /\ wc_ok w /\ (forall p, accepts w p <-> accepts_all I0 p) /\ maxima (sexc s) X).
Definition all_wc (l : list Z) : Prop := forall w, In w l -> wc_ok w.

Lemma maxima_unique e e' X X' : all_wc X -> (forall x, In x X <-> In x X') -> maxima e X -> maxima e' X' -> forall x, In x e <-> In x e'.
Proof.
  assert (H : forall e e' X X', all_wc X -> (forall x, In x X <-> In x X') -> maxima e X -> maxima e' X' -> forall x, In x e -> In x e').
  { intros a b Y Y' W E (A1 & A2 & A3) (B1 & B2 & B3) x Hx.
    pose proof (A1 x Hx) as HX. destruct (B2 x (proj1 (E x) HX)) as (y & Hy & Sy).
    pose proof (proj2 (E y) (B1 y Hy)) as HY. destruct (A2 y HY) as (z & Hz & Sz).
    assert (x = z) by (apply A3; auto; intros p Hp; apply Sz, Sy, Hp). subst z.
    enough (x = y) by congruence. apply wc_canonical; [now apply W|now apply W|]. intros p. split; [apply Sy|apply Sz]. }
  intros W E A B x. split; [eapply H; eauto|].
  apply (H e' e X' X); [intros w Hw; apply W, E, Hw|intros z; now rewrite E|exact B|exact A].
Qed.

Lemma rep_live s I0 X : rep s I0 X -> szero s = false <-> ~ dead I0 X.
Proof. intros [[A B]|(A & B & _)]; rewrite A; split; [discriminate|contradiction|auto|auto]. Qed.
Lemma rep_dead s I0 X : rep s I0 X -> szero s = true <-> dead I0 X.
Proof. intros [[A B]|(A & B & _)]; rewrite A; split; [auto|auto|discriminate|contradiction]. Qed.

(** an equal shim stands for the same cell *)
Lemma rep_eq s t I0 X : shim_eqb s t = true -> rep s I0 X -> rep t I0 X.
Proof.
  intros E [[A B]|(A & B & w & Cw & D & F & G)].
  - left. split; [|exact B]. now rewrite <- (shim_eqb_zero _ _ E).
  - apply shim_eqb_iff in E. destruct E as [[E _]|(_ & E2 & E3 & E4)]; [congruence|]. right. split; [exact E2|]. split; [exact B|].
    exists w. split; [congruence|]. split; [exact D|]. split; [exact F|]. destruct G as (G1 & G2 & G3).
    split; [|split].
    + intros x Hx. apply G1, E4, Hx.
    + intros x Hx. destruct (G2 x Hx) as (y & Hy & Sy). exists y. split; [now apply E4|exact Sy].
    + intros x y Hx Hy. apply G3; now apply E4.
Qed.

Lemma accepts_all_ext I0 I1 p : (forall w, In w I0 <-> In w I1) -> accepts_all I0 p <-> accepts_all I1 p.
Proof. intros E. split; intros H w Hw; apply H, E, Hw. Qed.
Lemma dead_ext I0 I1 X X1 : (forall w, In w I0 <-> In w I1) -> (forall w, In w X <-> In w X1) -> dead I0 X -> dead I1 X1.
Proof.
  intros E F [H|(x & Hx & H)].
  - left. intros (p & Hp). apply H. exists p. now apply (accepts_all_ext _ _ p E).
  - right. exists x. split; [now apply F|]. intros p Hp. apply H. now apply (accepts_all_ext _ _ p E).
Qed.
Lemma rep_ext s I0 I1 X X1 : (forall w, In w I0 <-> In w I1) -> (forall w, In w X <-> In w X1) -> rep s I0 X -> rep s I1 X1.
Proof.
  intros E F [[A B]|(A & B & w & Cw & D & H & (G1 & G2 & G3))].
  - left. split; [exact A|]. eapply dead_ext; eauto.
  - right. split; [exact A|]. split. { intros N. apply B. eapply dead_ext; [| |exact N]; intros z; symmetry; auto. }
    exists w. split; [exact Cw|]. split; [exact D|]. split. { intros p. rewrite H. now apply accepts_all_ext. }
    split; [|split; [|exact G3]].
    + intros x Hx. apply F, G1, Hx.
    + intros x Hx. apply G2, F, Hx.
Qed.

(** two shims for the same cell are equal *)
Lemma rep_same s t I0 X : all_wc X -> rep s I0 X -> rep t I0 X -> shim_eqb s t = true.
Proof.
  intros WX A B. apply shim_eqb_iff. destruct A as [[A1 A2]|(A1 & A2 & w & Cw & D & H & G)]; destruct B as [[B1 B2]|(B1 & B2 & w' & Cw' & D' & H' & G')]; try contradiction.
  - left. auto.
  - right. split; [exact A1|]. split; [exact B1|]. split.
    + rewrite Cw, Cw'. f_equal. apply wc_canonical; auto. intros p. now rewrite H, H'.
    + apply (maxima_unique _ _ X X); auto. intros x. reflexivity.
Qed.

(** two live shims over the same fields are equal only if their cells are *)
Definition parts (F I0 X : list Z) : Prop := (forall w, In w F <-> In w I0 \/ In w X).
Lemma live_inside F I0 X f : parts F I0 X -> ~ dead I0 X -> In f F -> (forall p, accepts_all I0 p -> accepts f p) -> In f I0.
Proof. intros P N Hf H. apply P in Hf. destruct Hf as [Hf|Hf]; [exact Hf|]. exfalso. apply N. right. exists f. auto. Qed.
Lemma live_disjoint I0 X f : ~ dead I0 X -> In f I0 -> In f X -> False.
Proof. intros N H1 H2. apply N. right. exists f. split; [exact H2|]. intros p Hp. apply Hp, H1. Qed.
Lemma rep_sep F s t I0 X I1 X1 : parts F I0 X -> parts F I1 X1 -> rep s I0 X -> rep t I1 X1 -> szero s = false -> shim_eqb s t = true ->
  (forall w, In w I0 <-> In w I1) /\ (forall w, In w X <-> In w X1).
Proof.
  intros P P1 Rs Rt Z E. pose proof (rep_eq _ _ _ _ E Rs) as Rt0. apply (rep_live _ _ _ Rs) in Z as N.
  assert (Zt : szero t = false) by (now rewrite <- (shim_eqb_zero _ _ E)).
  apply (rep_live _ _ _ Rt) in Zt as N1.
  assert (Q : forall p, accepts_all I0 p <-> accepts_all I1 p).
  { destruct Rt0 as [[A _]|(_ & _ & w & Cw & _ & H & _)]; [congruence|]. destruct Rt as [[A _]|(_ & _ & w' & Cw' & _ & H' & _)]; [congruence|].
    intros p. rewrite <- H, <- H'. replace w' with w by congruence. reflexivity. }
  assert (QI : forall w, In w I0 <-> In w I1).
  { intros w. split; intros Hw.
    - apply (live_inside F I1 X1 w P1 N1); [apply P; now left|]. intros p Hp. apply Q in Hp. now apply Hp.
    - apply (live_inside F I0 X w P N); [apply P1; now left|]. intros p Hp. apply Q in Hp. now apply Hp. }
  split; [exact QI|]. intros w. split; intros Hw.
  - assert (Hf : In w F) by (apply P; now right). apply P1 in Hf. destruct Hf as [Hf|Hf]; [|exact Hf]. exfalso. apply (live_disjoint I0 X w N); [now apply QI|exact Hw].
  - assert (Hf : In w F) by (apply P1; now right). apply P in Hf. destruct Hf as [Hf|Hf]; [|exact Hf]. exfalso. apply (live_disjoint I1 X1 w N1); [now apply QI|exact Hw].
Qed.

(** ** add *)
Section Add.
  Context (ords : list Z -> list Z) (Hords : forall l x, In x (ords l) <-> In x l).

  Lemma dead_mono_I I0 X w : dead I0 X -> dead (w :: I0) X.
  Proof.
    intros [H|(x & Hx & H)].
    - left. intros (p & Hp). apply H. exists p. intros z Hz. apply Hp. now right.
    - right. exists x. split; [exact Hx|]. intros p Hp. apply H. intros z Hz. apply Hp. now right.
  Qed.
  Lemma dead_mono_X I0 X w : dead I0 X -> dead I0 (w :: X).
  Proof. intros [H|(x & Hx & H)]; [now left|]. right. exists x. split; [now right|exact H]. Qed.

  Lemma add_include s I0 X wc : all_wc X -> rep s I0 X -> exists s', shim_add ords s wc true = Ok s' /\ rep s' (wc :: I0) X.
  Proof.
    intros WX [[A B]|(A & B & w & Cw & D & H & G)]; unfold shim_add; rewrite A; cbn iota.
    - exists s. split; [reflexivity|]. left. split; [exact A|now apply dead_mono_I].
    - rewrite Cw. eexists. split; [reflexivity|]. set (i := wildcard_intersect w wc).
      assert (Hi : forall p, accepts i p <-> accepts_all (wc :: I0) p).
      { intros p. unfold i. rewrite wildcard_intersect_accepts, H. split.
        - intros [H1 H2] z [<-|Hz]; [exact H2|now apply H1].
        - intros H1. split; [intros z Hz; apply H1; now right|apply H1; now left]. }
      destruct (i =? 0) eqn:E0; [apply Z.eqb_eq in E0|apply Z.eqb_neq in E0].
      + left. split; [reflexivity|]. left. intros (p & Hp). apply Hi in Hp. rewrite E0 in Hp. now apply accepts_0 in Hp.
      + assert (Wi : wc_ok i) by (apply wildcard_intersect_ok; [apply D|exact E0]). cbn [orb].
        destruct (existsb (fun x => wildcard_is_subset i x) (sexc s)) eqn:Ex.
        * left. split; [reflexivity|]. apply existsb_exists in Ex. destruct Ex as (x & Hx & Sx). destruct G as (G1 & _ & _).
          right. exists x. split; [now apply G1|]. intros p Hp. apply Hi in Hp. now apply (proj1 (subset_spec i x Wi) Sx).
        * right. split; [reflexivity|]. split.
          { intros [N|(x & Hx & N)].
            - apply N. destruct (zfree_nonempty i (proj2 Wi)) as (p & Hp). exists p. now apply Hi.
            - destruct G as (_ & G2 & _). destruct (G2 x Hx) as (y & Hy & Sy).
              assert (T : wildcard_is_subset i y = true). { apply subset_spec; [exact Wi|]. intros p Hp. apply Sy, N. now apply Hi. }
              assert (existsb (fun z => wildcard_is_subset i z) (sexc s) = true) by (apply existsb_exists; eauto). congruence. }
          exists i. cbn [sinc sexc]. split; [reflexivity|]. split; [exact Wi|]. split; [exact Hi|exact G].
  Qed.

  Lemma scan_ok wc (Wwc : wc_ok wc) : forall l rem, all_wc l -> (forall x y, In x l -> In y l -> sub x y -> x = y) ->
    (forall x y, In x rem -> In y l -> sub x y -> x = y) -> (forall x, In x rem -> sub x wc) ->
    exists r, scan wc rem l = Ok r /\
      match r with
      | None => exists y, In y l /\ sub wc y
      | Some rem' => forall x, In x rem' <-> In x rem \/ In x l /\ sub x wc
      end /\ (r <> None -> forall y, In y l -> sub wc y -> sub y wc).
  Proof.
    induction l as [|e l IH]; intros rem Wl AC RC RS; cbn [scan].
    - exists (Some rem). split; [reflexivity|]. split; [|intros _ y []]. intros x. cbn [In]. tauto.
    - assert (We : wc_ok e) by (apply Wl; now left).
      destruct (wildcard_is_subset e wc) eqn:E1.
      + pose proof (proj1 (subset_spec e wc We) E1) as S1.
        destruct (IH (rem ++ [e])) as (r & Er & Hr & Hn).
        * intros w Hw. apply Wl. now right.
        * intros x y Hx Hy. apply AC; now right.
        * intros x y Hx Hy Sxy. apply in_app_iff in Hx. destruct Hx as [Hx|[<-|[]]]; [apply RC; auto; now right|apply AC; auto; [now left|now right]].
        * intros x Hx. apply in_app_iff in Hx. destruct Hx as [Hx|[<-|[]]]; [now apply RS|exact S1].
        * exists r. split; [exact Er|]. split.
          { destruct r as [rem'|].
            - intros x. rewrite Hr, in_app_iff. cbn [In]. split; [intros [[H|[<-|[]]]|[H1 H2]]; auto|intros [H|[[<-|H1] H2]]; auto].
            - destruct Hr as (y & Hy & Sy). exists y. split; [now right|exact Sy]. }
          { intros N y [<-|Hy] Sy; [exact S1|now apply Hn]. }
      + assert (NS : ~ sub e wc) by (intros N; apply (subset_spec e wc We) in N; congruence).
        destruct (wildcard_is_subset wc e) eqn:E2.
        * pose proof (proj1 (subset_spec wc e Wwc) E2) as S2. destruct rem as [|x rem].
          { exists None. split; [reflexivity|]. split; [exists e; split; [now left|exact S2]|intros N; congruence]. }
          exfalso. assert (x = e) by (apply RC; [now left|now left|]; intros p Hp; apply S2, (RS x (or_introl eq_refl)), Hp). subst x.
          apply NS. apply RS. now left.
        * assert (NS2 : ~ sub wc e) by (intros N; apply (subset_spec wc e Wwc) in N; congruence).
          destruct (IH rem) as (r & Er & Hr & Hn); auto.
          { intros w Hw. apply Wl. now right. } { intros x y Hx Hy. apply AC; now right. } { intros x y Hx Hy. apply RC; auto. now right. }
          exists r. split; [exact Er|]. split.
          { destruct r as [rem'|].
            - intros x. rewrite Hr. cbn [In]. split; [intros [H|[H1 H2]]; auto|intros [H|[[<-|H1] H2]]; auto; contradiction].
            - destruct Hr as (y & Hy & Sy). exists y. split; [now right|exact Sy]. }
          { intros N y [<-|Hy] Sy; [contradiction|now apply Hn]. }
  Qed.

  Lemma add_exclude s I0 X wc : all_wc X -> wc_ok wc -> rep s I0 X -> exists s', shim_add ords s wc false = Ok s' /\ rep s' I0 (wc :: X).
  Proof.
    intros WX Wwc [[A B]|(A & B & w & Cw & D & H & (G1 & G2 & G3))]; unfold shim_add; rewrite A; cbn iota.
    - exists s. split; [reflexivity|]. left. split; [exact A|now apply dead_mono_X].
    - rewrite Cw. destruct (wildcard_is_subset w wc) eqn:E.
      + pose proof (proj1 (subset_spec w wc D) E) as Sw. eexists. split; [reflexivity|]. left. split; [reflexivity|]. right. exists wc. split; [now left|].
        intros p Hp. apply Sw. now apply H.
      + assert (N' : ~ dead I0 (wc :: X)).
        { intros [N|(x & [<-|Hx] & N)]; [apply B; now left| |apply B; right; eauto].
          assert (T : wildcard_is_subset w wc = true) by (apply subset_spec; [exact D|]; intros p Hp; apply N; now apply H). congruence. }
        assert (We : all_wc (sexc s)) by (intros x Hx; apply WX, G1, Hx).
        destruct (scan_ok wc Wwc (ords (sexc s)) []) as (r & Er & Hr & Hn).
        { intros x Hx. apply We, Hords, Hx. } { intros x y Hx Hy. apply G3; now apply Hords. } { intros x y []. } { intros x []. }
        rewrite Er. cbn [rbind]. destruct r as [rem|].
        * eexists. split; [reflexivity|]. right. split; [reflexivity|]. split; [exact N'|]. exists w. cbn [sinc sexc].
          split; [reflexivity|]. split; [exact D|]. split; [exact H|].
          assert (IN : forall x, In x (zadd (zminus (sexc s) rem) wc) <-> (In x (sexc s) /\ ~ sub x wc) \/ x = wc).
          { intros x. rewrite zadd_in, zminus_in, Hr, Hords. cbn [In]. split; [intros [[H1 H2]|H1]; [left|now right]|intros [[H1 H2]|H1]; [left|now right]].
            - split; [exact H1|]. intros N. apply H2. now right.
            - split; [exact H1|]. intros [[]|[_ N]]. contradiction. }
          split; [|split].
          { intros x Hx. apply IN in Hx. destruct Hx as [[Hx _]| ->]; [right; now apply G1|now left]. }
          { intros x [<-|Hx]; [exists wc; split; [apply IN; now right|intros p Hp; exact Hp]|].
            destruct (G2 x Hx) as (y & Hy & Sy). destruct (wildcard_is_subset y wc) eqn:Ey.
            - pose proof (proj1 (subset_spec y wc (We y Hy)) Ey) as S2. exists wc. split; [apply IN; now right|]. intros p Hp. apply S2, Sy, Hp.
            - exists y. split; [|exact Sy]. apply IN. left. split; [exact Hy|]. intros N. apply (subset_spec y wc (We y Hy)) in N. congruence. }
          { intros x y Hx Hy Sxy. apply IN in Hx. apply IN in Hy. destruct Hx as [[Hx Nx]|Hx], Hy as [[Hy Ny]|Hy].
            - now apply G3.
            - subst y. contradiction.
            - subst x. exfalso. apply Ny. apply Hn; [discriminate|now apply Hords|exact Sxy].
            - congruence. }
        * destruct Hr as (y & Hy & Sy). apply (proj1 (Hords _ _)) in Hy. exists s. split; [reflexivity|]. right. split; [exact A|]. split; [exact N'|]. exists w.
          split; [exact Cw|]. split; [exact D|]. split; [exact H|]. split; [|split].
          { intros x Hx. right. now apply G1. } { intros x [<-|Hx]; [exists y; split; [exact Hy|exact Sy]|now apply G2]. } { exact G3. }
  Qed.

  Lemma shim_of_ok wc : wc_ok wc -> exists s, shim_of ords wc = Ok s /\ rep s [wc] [] /\ szero s = false.
  Proof.
    intros W. unfold shim_of, shim_add. cbn [szero sinc sexc]. eexists. split; [reflexivity|].
    assert (N : (wc =? 0) = false). { apply Z.eqb_neq. apply zfree_nonzero. apply W. } rewrite N.
    split; [|reflexivity]. right. split; [reflexivity|]. split.
    { intros [H|(x & [] & _)]. apply H. destruct (zfree_nonempty wc (proj2 W)) as (p & Hp). exists p. intros w [<-|[]]. exact Hp. }
    exists wc. cbn [sinc sexc]. split; [reflexivity|]. split; [exact W|]. split.
    { intros p. split; [intros H w [<-|[]]; exact H|intros H; apply H; now left]. }
    split; [intros x []|]. split; [intros x []|intros x y []].
  Qed.
End Add.

(** ** dicts *)
Section DictFacts.
  Context {V : Type}.
  Fixpoint distinct (d : sdict V) : Prop :=
    match d with [] => True | (k, _) :: t => (forall k' v', In (k', v') t -> shim_eqb k k' = false) /\ distinct t end.
  Lemma eqb_r a b c : shim_eqb a b = true -> shim_eqb c a = shim_eqb c b.
  Proof.
    intros H. destruct (shim_eqb c a) eqn:E; symmetry.
    - eapply shim_eqb_trans; eauto.
    - destruct (shim_eqb c b) eqn:E'; [|reflexivity]. rewrite (shim_eqb_trans c b a E' (shim_eqb_sym _ _ H)) in E. discriminate.
  Qed.
  Lemma eqb_comm a b : shim_eqb a b = shim_eqb b a.
  Proof. destruct (shim_eqb a b) eqn:E; symmetry; [now apply shim_eqb_sym|]. destruct (shim_eqb b a) eqn:E'; [|reflexivity]. apply shim_eqb_sym in E'. congruence. Qed.
  Lemma sget_eq (d : sdict V) a b : shim_eqb a b = true -> sget d a = sget d b.
  Proof. intros H. induction d as [|[k v] d IH]; cbn [sget]; [reflexivity|]. now rewrite (eqb_r a b k H), IH. Qed.
  Lemma sget_some (d : sdict V) k v : sget d k = Some v -> exists k', In (k', v) d /\ shim_eqb k' k = true.
  Proof.
    induction d as [|[k0 v0] d IH]; cbn [sget]; [discriminate|]. destruct (shim_eqb k0 k) eqn:E.
    - intros H. injection H as <-. exists k0. split; [now left|exact E].
    - intros H. destruct (IH H) as (k' & Hk & Ek). exists k'. split; [now right|exact Ek].
  Qed.
  Lemma sget_none (d : sdict V) k : sget d k = None <-> forall k' v', In (k', v') d -> shim_eqb k' k = false.
  Proof.
    induction d as [|[k0 v0] d IH]; cbn [sget]; [split; [intros _ k' v' []|auto]|]. destruct (shim_eqb k0 k) eqn:E.
    - split; [discriminate|]. intros H. rewrite (H k0 v0 (or_introl eq_refl)) in E. discriminate.
    - rewrite IH. split; intros H k' v'; [intros [Q|Q]; [injection Q as <- <-; exact E|eauto]|intros Q; apply (H k' v'); now right].
  Qed.
  Lemma sget_in (d : sdict V) k v : distinct d -> In (k, v) d -> sget d k = Some v.
  Proof.
    induction d as [|[k0 v0] d IH]; cbn [distinct sget]; [intros _ []|]. intros [N D] [Q|Q].
    - injection Q as -> ->. now rewrite shim_eqb_refl.
    - rewrite (N k v Q). auto.
  Qed.
  Lemma distinct_snoc (d : sdict V) k v : distinct d -> sget d k = None -> distinct (d ++ [(k, v)]).
  Proof.
    induction d as [|[k0 v0] d IH]; cbn [distinct sget app]; [intros _ _; split; [intros k' v' []|exact Logic.I]|].
    intros [N D] H. destruct (shim_eqb k0 k) eqn:E; [discriminate|]. split; [|auto].
    intros k' v' Q. apply in_app_iff in Q. destruct Q as [Q|[Q|[]]]; [eauto|]. injection Q as <- <-. exact E.
  Qed.
  Lemma sget_snoc (d : sdict V) k v k' : sget (d ++ [(k, v)]) k' = match sget d k' with Some x => Some x | None => if shim_eqb k k' then Some v else None end.
  Proof. induction d as [|[k0 v0] d IH]; cbn [sget app]; [reflexivity|]. destruct (shim_eqb k0 k'); auto. Qed.
  Lemma sput_distinct (d : sdict V) k v : distinct d -> distinct (sput d k v).
  Proof. intros D. unfold sput. destruct (sget d k) eqn:E; [exact D|]. now apply distinct_snoc. Qed.
  Lemma sget_sput (d : sdict V) k v k' : sget (sput d k v) k' = match sget d k' with Some x => Some x | None => if shim_eqb k k' then Some v else None end.
  Proof.
    unfold sput. destruct (sget d k) eqn:E; [|apply sget_snoc]. destruct (sget d k') eqn:E'; [reflexivity|].
    destruct (shim_eqb k k') eqn:Q; [|reflexivity]. rewrite (sget_eq d k k' Q) in E. congruence.
  Qed.
  Lemma sget_sset (d : sdict V) k v k' : sget (sset d k v) k' = if shim_eqb k k' then Some v else sget d k'.
  Proof.
    induction d as [|[k0 v0] d IH]; cbn [sset]; [cbn [sget]; reflexivity|]. destruct (shim_eqb k0 k) eqn:E; cbn [sget].
    - rewrite (eqb_comm k0 k'), (eqb_r _ _ k' E), (eqb_comm k' k). now destruct (shim_eqb k k').
    - rewrite IH. destruct (shim_eqb k0 k') eqn:E'; [|reflexivity]. destruct (shim_eqb k k') eqn:Q; [|reflexivity].
      rewrite (eqb_r _ _ k0 Q) in E. congruence.
  Qed.
  Lemma sset_in (d : sdict V) k v k' v' : In (k', v') (sset d k v) -> (exists v0, In (k', v0) d) \/ k' = k.
  Proof.
    induction d as [|[k0 v0] d IH]; cbn [sset]; [intros [H|[]]; injection H as <- <-; now right|]. destruct (shim_eqb k0 k) eqn:E; intros [H|H].
    - injection H as <- <-. left. exists v0. now left.
    - left. exists v'. now right.
    - injection H as <- <-. left. exists v0. now left.
    - destruct (IH H) as [(v1 & H1)|H1]; [left; exists v1; now right|now right].
  Qed.
  Lemma sset_distinct (d : sdict V) k v : distinct d -> distinct (sset d k v).
  Proof.
    induction d as [|[k0 v0] d IH]; cbn [sset distinct]; [intros _; split; [intros k' v' []|exact Logic.I]|]. intros [N D].
    destruct (shim_eqb k0 k) eqn:E; cbn [distinct]; [auto|]. split; [|auto].
    intros k' v' H. apply sset_in in H. destruct H as [(v1 & H)| ->]; [eauto|exact E].
  Qed.
  Lemma supdate_spec (e : sdict V) : distinct e -> forall d, (distinct d -> distinct (supdate d e)) /\
    forall k, sget (supdate d e) k = match sget e k with Some x => Some x | None => sget d k end.
  Proof.
    induction e as [|[k0 v0] e IH]; cbn [distinct]; intros De d; [split; auto|]. destruct De as [N De].
    unfold supdate. cbn [fold_left fst snd]. destruct (IH De (sset d k0 v0)) as [A B]. split; [intros D; apply A; now apply sset_distinct|].
    intros k. unfold supdate in B. rewrite B. cbn [sget]. rewrite sget_sset. destruct (shim_eqb k0 k) eqn:E; [|reflexivity].
    replace (sget e k) with (@None V); [reflexivity|]. symmetry. apply sget_none. intros k' v' H. rewrite eqb_comm.
    destruct (shim_eqb k k') eqn:Q; [|reflexivity]. rewrite <- (N k' v' H). symmetry. eapply shim_eqb_trans; eauto.
  Qed.
  Lemma sdel_spec (d : sdict V) k : distinct d -> sget d k <> None -> exists d', sdel d k = Ok d' /\ distinct d' /\
    (forall k' v', In (k', v') d' <-> In (k', v') d /\ shim_eqb k' k = false).
  Proof.
    induction d as [|[k0 v0] d IH]; cbn [distinct sget sdel]; [congruence|]. intros [N D] H. destruct (shim_eqb k0 k) eqn:E.
    - exists d. split; [reflexivity|]. split; [exact D|]. intros k' v'. split.
      + intros Q. split; [now right|]. rewrite eqb_comm. destruct (shim_eqb k k') eqn:F; [|reflexivity].
        pose proof (N k' v' Q) as P. rewrite (shim_eqb_trans k0 k k' E F) in P. discriminate.
      + intros [[Q|Q] F]; [injection Q as <- <-; congruence|exact Q].
    - destruct (IH D H) as (d' & Ed & Dd & Hd). rewrite Ed. cbn [rbind]. exists ((k0, v0) :: d'). split; [reflexivity|]. split.
      + split; [|exact Dd]. intros k' v' Q. apply Hd in Q. eapply N. apply Q.
      + intros k' v'. cbn [In]. rewrite Hd. split; [intros [Q|[Q F]]; [injection Q as <- <-; auto|auto]|intros [[Q|Q] F]; auto].
  Qed.
End DictFacts.

(** a list mapped injectively into one that is not longer covers it *)
Lemma pigeon {A} (R : A -> A -> bool) (sym : forall x y, R x y = true -> R y x = true) (trans : forall x y z, R x y = true -> R y z = true -> R x z = true) :
  forall l1 l2, (ForallOrdPairs (fun x y => R x y = false) l1) -> (forall x, In x l1 -> exists y, In y l2 /\ R x y = true) -> (List.length l2 <= List.length l1)%nat ->
  forall y, In y l2 -> exists x, In x l1 /\ R x y = true.
Proof.
  induction l1 as [|x l1 IH]; intros l2 D M Ln y Hy; cbn [List.length] in Ln.
  - destruct l2; [destruct Hy|cbn [List.length] in Ln; lia].
  - inversion D as [|a b Dx Dl]; subst.
    destruct (M x (or_introl eq_refl)) as (y0 & Hy0 & R0). apply in_split in Hy0. destruct Hy0 as (a & b & ->).
    rewrite app_length in Ln. cbn [List.length] in Ln.
    apply in_app_iff in Hy. cbn [In] in Hy. assert (Q : y = y0 \/ In y (a ++ b)) by (rewrite in_app_iff; intuition).
    destruct Q as [->|Q]; [exists x; split; [now left|exact R0]|].
    destruct (IH (a ++ b)) with (y := y) as (x' & Hx' & Rx'); auto.
    + intros x' Hx'. destruct (M x' (or_intror Hx')) as (y' & Hy' & R'). apply in_app_iff in Hy'. cbn [In] in Hy'.
      destruct Hy' as [Hy'|[<-|Hy']]; [exists y'; rewrite in_app_iff; auto| |exists y'; rewrite in_app_iff; auto].
      exfalso. rewrite Forall_forall in Dx. pose proof (Dx x' Hx') as P. rewrite (trans x y0 x' R0 (sym _ _ R')) in P. discriminate.
    + rewrite app_length. lia.
    + exists x'. split; [now right|exact Rx'].
Qed.

(** ** Splitting one entry over the fields *)
Definition cell (k : shim) (I0 X0 : list Z) (s : Z -> bool) (A : list Z) : Prop := rep k (I0 ++ pos s A) (X0 ++ neg s A).
Lemma pos_in s A w : In w (pos s A) <-> In w A /\ s w = true.
Proof. apply filter_In. Qed.
Lemma neg_in s A w : In w (neg s A) <-> In w A /\ s w = false.
Proof. unfold neg. rewrite filter_In, negb_true_iff. reflexivity. Qed.
Lemma cell_ext k I0 X0 s s' A A' : (forall w, In w A <-> In w A') -> (forall w, In w A -> s w = s' w) -> cell k I0 X0 s A -> cell k I0 X0 s' A'.
Proof.
  intros E F. apply rep_ext; intros w; rewrite !in_app_iff, ?pos_in, ?neg_in, <- E; split; (intros [H|[H1 H2]]; [now left|right]); split; auto.
  - now rewrite <- F.
  - now rewrite F.
  - now rewrite <- F.
  - now rewrite F.
Qed.

Section Split.
  Context (ords : list Z -> list Z) (Hords : forall l x, In x (ords l) <-> In x l).
  Context {V : Type} (v : V).

  Lemma sput_in (d : sdict V) k x k' v' : In (k', v') (sput d k x) -> In (k', v') d \/ (k', v') = (k, x).
  Proof. unfold sput. destruct (sget d k); [auto|]. rewrite in_app_iff. intros [H|[H|[]]]; auto. Qed.
  Lemma sput_incl (d : sdict V) k x e : In e d -> In e (sput d k x).
  Proof. unfold sput. destruct (sget d k); [auto|]. rewrite in_app_iff. auto. Qed.
  Definition all_v (d : sdict V) : Prop := forall k x, In (k, x) d -> x = v.
  Lemma sput_has (d : sdict V) k : all_v d -> exists k', In (k', v) (sput d k v) /\ shim_eqb k' k = true.
  Proof.
    intros Hv. unfold sput. destruct (sget d k) eqn:E.
    - destruct (sget_some _ _ _ E) as (k' & H & Q). exists k'. rewrite (Hv _ _ H) in H. auto.
    - exists k. split; [apply in_app_iff; right; now left|apply shim_eqb_refl].
  Qed.

  Lemma split_fold a : forall (l N : sdict V), distinct N -> all_v N ->
    (forall z x, In (z, x) l -> exists tn tp, shim_add ords z a false = Ok tn /\ shim_add ords z a true = Ok tp) ->
    exists N', rfold (fun next z => do ng <- shim_add ords (fst z) a false; do ps <- shim_add ords (fst z) a true; Ok (sput (sput next ps v) ng v)) l N = Ok N' /\
      distinct N' /\ all_v N' /\ (forall e, In e N -> In e N') /\
      (forall t x, In (t, x) N' -> In (t, x) N \/ exists z y b, In (z, y) l /\ shim_add ords z a b = Ok t) /\
      (forall z y b, In (z, y) l -> exists t t', shim_add ords z a b = Ok t /\ In (t', v) N' /\ shim_eqb t' t = true).
  Proof.
    induction l as [|[z y] l IH]; intros N D Hv T; cbn [rfold].
    - exists N. split; [reflexivity|]. split; [exact D|]. split; [exact Hv|]. split; [auto|]. split; [auto|intros z y b []].
    - destruct (T z y (or_introl eq_refl)) as (tn & tp & En & Ep). cbn [fst]. rewrite En, Ep. cbn [rbind].
      assert (Hv1 : all_v (sput N tp v)) by (intros k x H; apply sput_in in H; destruct H as [H|H]; [eauto|injection H as _ ->; reflexivity]).
      assert (Hv2 : all_v (sput (sput N tp v) tn v)) by (intros k x H; apply sput_in in H; destruct H as [H|H]; [eauto|injection H as _ ->; reflexivity]).
      destruct (IH (sput (sput N tp v) tn v)) as (N' & E & D' & Hv' & Inc & Fr & To).
      { now apply sput_distinct, sput_distinct. } { exact Hv2. } { intros z' x' H. apply (T z' x'). now right. }
      exists N'. split; [exact E|]. split; [exact D'|]. split; [exact Hv'|]. split; [intros e He; apply Inc; now apply sput_incl, sput_incl|]. split.
      + intros t x H. apply Fr in H. destruct H as [H|(z' & y' & b & H & Eb)]; [|right; exists z', y', b; split; [now right|exact Eb]].
        apply sput_in in H. destruct H as [H|H]; [|injection H as -> ->; right; exists z, y, false; split; [now left|exact En]].
        apply sput_in in H. destruct H as [H|H]; [now left|injection H as -> ->; right; exists z, y, true; split; [now left|exact Ep]].
      + intros z' y' b [H|H]; [|now apply (To z' y' b)]. injection H as <- <-. destruct b.
        * exists tp. destruct (sput_has N tp Hv) as (k' & Hk & Ek). exists k'. split; [exact Ep|]. split; [apply Inc; now apply sput_incl|exact Ek].
        * exists tn. destruct (sput_has (sput N tp v) tn Hv1) as (k' & Hk & Ek). exists k'. split; [exact En|]. split; [now apply Inc|exact Ek].
  Qed.

  Context (I0 X0 : list Z) (WX : all_wc X0).
  Definition gspec (G : sdict V) (A : list Z) : Prop :=
    distinct G /\ all_v G /\ (forall z x, In (z, x) G -> exists s, cell z I0 X0 s A) /\ (forall s, exists z, In (z, v) G /\ cell z I0 X0 s A).

  Lemma upd_true (s : Z -> bool) a b : (fun x => if x =? a then b else s x) a = b.
  Proof. cbn beta. now rewrite Z.eqb_refl. Qed.
  Lemma cell_step z t a b s A : ~ In a A -> all_wc A -> wc_ok a -> cell z I0 X0 s A -> shim_add ords z a b = Ok t ->
    cell t I0 X0 (fun x => if x =? a then b else s x) (A ++ [a]).
  Proof.
    intros Na WA Wa Hc E. unfold cell in *.
    assert (WXA : all_wc (X0 ++ neg s A)) by (intros w Hw; apply in_app_iff in Hw; rewrite neg_in in Hw; destruct Hw as [Hw|[Hw _]]; auto).
    assert (Q : forall w, In w A -> (w =? a) = false) by (intros w Hw; apply Z.eqb_neq; intros ->; contradiction).
    destruct b.
    - destruct (add_include ords _ _ _ a WXA Hc) as (t' & E' & R). rewrite E in E'. injection E' as <-.
      apply (rep_ext _ _ _ _ _) with (3 := R); intros w; cbn [In]; rewrite !in_app_iff, ?pos_in, ?neg_in, !in_app_iff; cbn [In].
      + split.
        * intros [<-|[H|[H1 H2]]]; [right; split; [auto|now rewrite Z.eqb_refl]|now left|right; split; [auto|]; now rewrite (Q w H1)].
        * intros [H|[[H1|[<-|[]]] H2]]; [auto|rewrite (Q w H1) in H2; auto|auto].
      + split.
        * intros [H|[H1 H2]]; [now left|right; split; [auto|]; now rewrite (Q w H1)].
        * intros [H|[[H1|[<-|[]]] H2]]; [auto|rewrite (Q w H1) in H2; auto|rewrite Z.eqb_refl in H2; discriminate].
    - destruct (add_exclude ords Hords _ _ _ a WXA Wa Hc) as (t' & E' & R). rewrite E in E'. injection E' as <-.
      apply (rep_ext _ _ _ _ _) with (3 := R); intros w; cbn [In]; rewrite !in_app_iff, ?pos_in, ?neg_in, !in_app_iff; cbn [In].
      + split.
        * intros [H|[H1 H2]]; [now left|right; split; [auto|]; now rewrite (Q w H1)].
        * intros [H|[[H1|[<-|[]]] H2]]; [auto|rewrite (Q w H1) in H2; auto|rewrite Z.eqb_refl in H2; discriminate].
      + split.
        * intros [<-|[H|[H1 H2]]]; [right; split; [auto|now rewrite Z.eqb_refl]|now left|right; split; [auto|]; now rewrite (Q w H1)].
        * intros [H|[[H1|[<-|[]]] H2]]; [auto|rewrite (Q w H1) in H2; auto|auto].
  Qed.

  Lemma split_ok a G A : ~ In a A -> all_wc A -> wc_ok a -> gspec G A -> exists G', split_cells ords v G a = Ok G' /\ gspec G' (A ++ [a]).
  Proof.
    intros Na WA Wa (D & Hv & Fr & To). unfold split_cells.
    destruct (split_fold a G []) as (G' & E & D' & Hv' & _ & Fr' & To'); [exact Logic.I|intros k x []| |].
    { intros z x Hz. destruct (Fr z x Hz) as (s & Hs).
      assert (WXA : all_wc (X0 ++ neg s A)) by (intros w Hw; apply in_app_iff in Hw; rewrite neg_in in Hw; destruct Hw as [Hw|[Hw _]]; auto).
      destruct (add_exclude ords Hords _ _ _ a WXA Wa Hs) as (tn & En & _). destruct (add_include ords _ _ _ a WXA Hs) as (tp & Ep & _). eauto. }
    exists G'. split; [exact E|]. split; [exact D'|]. split; [exact Hv'|]. split.
    - intros t x Ht. apply Fr' in Ht. destruct Ht as [[]|(z & y & b & Hz & Eb)]. destruct (Fr z y Hz) as (s & Hs). eexists. eapply cell_step; eauto.
    - intros s. destruct (To s) as (z & Hz & Hs). destruct (To' z v (s a) Hz) as (t & t' & Et & Ht' & Q). exists t'. split; [exact Ht'|].
      pose proof (cell_step z t a (s a) s A Na WA Wa Hs Et) as R. apply shim_eqb_sym in Q. pose proof (rep_eq _ _ _ _ Q R) as R'.
      eapply cell_ext; [| |exact R']; [intros w; reflexivity|]. intros w _. cbn beta. destruct (Z.eqb_spec w a) as [->|_]; reflexivity.
  Qed.

  Lemma splits_ok : forall A' G A, NoDup (A ++ A') -> all_wc (A ++ A') -> gspec G A -> exists G', rfold (split_cells ords v) A' G = Ok G' /\ gspec G' (A ++ A').
  Proof.
    induction A' as [|a A' IH]; intros G A ND W HG; cbn [rfold].
    - exists G. rewrite app_nil_r. auto.
    - destruct (split_ok a G A) as (G1 & E1 & H1); auto.
      { apply NoDup_remove_2 in ND. intros H. apply ND. apply in_app_iff. auto. } { intros w Hw. apply W, in_app_iff. auto. } { apply W, in_app_iff. right. now left. }
      rewrite E1. cbn [rbind]. replace (A ++ a :: A') with ((A ++ [a]) ++ A') in * by (now rewrite <- app_assoc). apply IH; auto.
  Qed.
  Lemma gspec_init k : rep k I0 X0 -> gspec [(k, v)] [].
  Proof.
    intros R. assert (C0 : forall s, cell k I0 X0 s []) by (intros s; unfold cell; cbn [pos neg filter]; now rewrite !app_nil_r).
    split; [split; [intros k' v' []|exact Logic.I]|]. split; [intros k' x [H|[]]; now injection H as _ <-|]. split.
    - intros z x [H|[]]. injection H as <- <-. exists (fun _ => true). apply C0.
    - intros s. exists k. split; [now left|apply C0].
  Qed.
  Lemma gspec_get G A k : all_wc A -> gspec G A -> forall x, sget G k = Some x <-> x = v /\ exists s, cell k I0 X0 s A.
  Proof.
    intros WA (D & Hv & Fr & To) x. split.
    - intros H. destruct (sget_some _ _ _ H) as (k' & Hk & Q). split; [eapply Hv; eauto|]. destruct (Fr _ _ Hk) as (s & Hs). exists s. exact (rep_eq _ _ _ _ Q Hs).
    - intros [-> (s & Hs)]. destruct (To s) as (z & Hz & Hzs). rewrite <- (sget_eq G z k); [now apply sget_in|].
      apply (rep_same z k (I0 ++ pos s A) (X0 ++ neg s A)); auto.
      intros w Hw. apply in_app_iff in Hw. rewrite neg_in in Hw. destruct Hw as [Hw|[Hw _]]; auto.
  Qed.
End Split.
