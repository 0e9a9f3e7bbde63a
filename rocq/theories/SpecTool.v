(** Specification side of the command check_equivalence: what the lines and the report say. *)
From Verif Require Export SpecPipeline.
From Verif Require Import SingleTable.
Local Open Scope string_scope.
Local Open Scope list_scope.
Local Open Scope Z_scope.

(** A file is asked for: by its name alone or with the option of one of the six formats. *)
Definition asked (files : list string) (options : string -> list string) (f fmt : string) : Prop :=
  (fmt = "auto" /\ In f files) \/ (In fmt ["auto"; "ryu_pickle"; "ryu_json"; "pickle"; "ovs"; "fib"] /\ In f (options fmt)).
(** Two names are printed on one line. *)
Definition same_line (lines : list (list string)) (a b : string) : Prop := exists l, In l lines /\ In a l /\ In b l.
(** The tables prescribe different actions for the packet. *)
Definition unlike (S T : list rule) (p : packet) : Prop := ~ (forall o, prescribes S p o <-> prescribes T p o).
(** A report relates a path of the first ruleset to one of the second. *)
Definition related (res : list (list core * list (list core))) (P Q : list core) : Prop := exists Qs, In (P, Qs) res /\ In Q Qs.
(** The first name of each line with the first name of the next. *)
Fixpoint consecutive (l : list (list string)) : list (string * string) :=
  match l with
  | (a :: _) :: rest => match rest with (b :: _) :: _ => (a, b) :: consecutive rest | _ => [] end
  | _ => []
  end.
(** [P] lists the rules the packet hits, with their priorities rescaled, and the default of a
    table that it misses. *)
Definition takes (rules : list rule) (p : packet) (P : list core) : Prop :=
  exists route cs extra, visits rules 0 p route /\ Forall2 (fun r d => same_rule (rcore r) d) route cs /\ P = cs ++ extra /\
    (extra = [] \/ exists t, extra = [default_core t]).
