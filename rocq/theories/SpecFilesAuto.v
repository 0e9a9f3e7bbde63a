(** Specification for C101: loading with unknown format
    (/repo/ofequivalence/convert_ruleset.py:51-97, its docstring). *)
From Verif Require Import Base Files SpecFiles.
Open Scope nat_scope.

(** What is expected: the first loader that succeeds on the whole contents decides. *)
Fixpoint first_success (ls : list (bool * prog)) (contents : data) : outcome :=
  match ls with
  | [] => Raised EValue
  | (binary, p) :: t =>
      match fst (ideal (negb binary) true false p contents []) with
      | Returned r => Returned r
      | Raised _ => first_success t contents
      end
  end.

(** A file object open for reading, at its start. *)
Definition reader (contents : data) (text : bool) : stream := Stream text true false false contents [].
(** No loader closes its handle. *)
Definition well_behaved (ls : list (bool * prog)) : Prop := Forall (fun l => keeps_open (snd l)) ls.
