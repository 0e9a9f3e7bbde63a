(** Shared vocabulary of the model: Python exceptions as values, small list helpers. *)
From Coq Require Export List ZArith Bool Lia String Ascii.
From Coq Require Import ZifyBool ZifyNat ZifyN.
Export ListNotations.
Open Scope list_scope.
Open Scope Z_scope.

(** The Python exceptions that the modelled functions can raise.
    [OutOfFuel] is not a Python exception: it marks exhausted recursion fuel in the
    model and every theorem either excludes it or proves it does not occur. *)
Inductive exn : Set :=
| KeyError | IndexError | ValueError | TypeError | AssertionError | OverflowError
| UnboundLocalError | AttributeError | NotImplementedError
| MergeException | MergeExceptionNoOverlap | RecursionError | RuntimeError | ImportError | StopIteration | OutOfFuel.

Inductive result (A : Type) : Type :=
| Ok (a : A)
| Err (e : exn).
Arguments Ok {A} a.
Arguments Err {A} e.

Definition rbind {A B} (r : result A) (f : A -> result B) : result B :=
  match r with Ok a => f a | Err e => Err e end.
Definition rmap {A B} (f : A -> B) (r : result A) : result B :=
  match r with Ok a => Ok (f a) | Err e => Err e end.
Notation "'do' x <- r ; f" := (rbind r (fun x => f))
  (at level 200, x pattern, r at level 100, f at level 200, right associativity).

Definition is_ok {A} (r : result A) : bool :=
  match r with Ok _ => true | Err _ => false end.

(** Sequence a list of results: the first exception wins. *)
Fixpoint rall {A} (l : list (result A)) : result (list A) :=
  match l with
  | [] => Ok []
  | r :: t => do x <- r; do xs <- rall t; Ok (x :: xs)
  end.

(** Left fold that stops at the first exception (a Python [for] loop). *)
Fixpoint rfold {A B} (f : B -> A -> result B) (l : list A) (b : B) : result B :=
  match l with
  | [] => Ok b
  | x :: t => do b' <- f b x; rfold f t b'
  end.

Definition seqZ (n : nat) : list Z := map Z.of_nat (seq 0 n).

Lemma in_seqZ n z : In z (seqZ n) <-> 0 <= z < Z.of_nat n.
Proof.
  unfold seqZ. rewrite in_map_iff. split.
  - intros [k [<- Hk]]. apply in_seq in Hk. lia.
  - intros H. exists (Z.to_nat z). split; [lia|]. apply in_seq. lia.
Qed.

Lemma forallb_seqZ n (P : Z -> bool) :
  forallb P (seqZ n) = true <-> forall z, 0 <= z < Z.of_nat n -> P z = true.
Proof.
  rewrite forallb_forall. split; intros H z Hz.
  - apply H. now apply in_seqZ.
  - apply H. now apply in_seqZ in Hz.
Qed.

Lemma forallb_false_exists {A} (f : A -> bool) l :
  forallb f l = false -> exists x, In x l /\ f x = false.
Proof.
  induction l as [|x t IH]; cbn [forallb]; [discriminate|].
  destruct (f x) eqn:E; cbn [andb].
  - intros H. destruct (IH H) as [y [Hy E']]. exists y. split; [now right|auto].
  - intros _. exists x. split; [now left|auto].
Qed.

Lemma existsb_false {A} (f : A -> bool) l :
  existsb f l = false <-> forall x, In x l -> f x = false.
Proof.
  split.
  - intros H x Hx. destruct (f x) eqn:E; [|reflexivity].
    assert (existsb f l = true); [|congruence]. apply existsb_exists. eauto.
  - intros H. destruct (existsb f l) eqn:E; [|reflexivity].
    apply existsb_exists in E as [x [Hx Hf]]. rewrite H in Hf; auto.
Qed.
