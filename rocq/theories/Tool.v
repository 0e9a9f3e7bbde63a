(** The command check_equivalence. Models ofequivalence/check_equivalence.py:76-192 (main) on top
    of the models of the functions it calls.
    Simplified: the parsed arguments are given as a record and argparse itself is not modelled;
    [load] stands for convert_ruleset.load_ruleset and is any function of the file name and the
    format, so a stream that is read twice gives the same rules twice; -r is left out (C60) and so
    is the printing of timings and sizes; format_path only lays out text. The result is what is
    printed: the lines of names and the conflicting paths. An exception in the report of the
    differences discards the lines, which the code has printed by then. *)
From Verif Require Export SingleTable Normalise.
Local Open Scope string_scope.
Local Open Scope list_scope.
Local Open Scope Z_scope.

(** convert_ruleset.py:39 *)
Definition INPUT_FORMATS : list string := ["auto"; "ryu_pickle"; "ryu_json"; "pickle"; "ovs"; "fib"].
(** 78-110: the arguments. [op_format f] are the names given with the option --f. *)
Record options := mkOptions { op_rulesets : list string; op_format : string -> list string; op_dc : bool; op_difference : bool }.

Definition report := list (list core * list (list core)).
(** No name given (usage, exit status -1); one name (exit status 0, nothing compared); otherwise the lines
    and, with -D, the pairs of names with their conflicting paths. *)
Inductive outcome := Usage | Nothing | Lines (lines : list (list string)) (diffs : list (string * string * report)).

Section Tool.
  Context (SHIFT : Z) (load : string -> string -> st (list rule)).

  (** 115-125: the files in the order they are loaded *)
  Definition jobs (o : options) : list (string * string) :=
    map (fun f => (f, "auto")) (op_rulesets o) ++ flat_map (fun fmt => map (fun f => (f, fmt)) (op_format o fmt)) INPUT_FORMATS.
  (** 118-119 and 124-125: rulesets[f_name] = load_ruleset(f_name, _format) *)
  Definition load_into (rulesets : dict (list rule)) (job : string * string) : st (dict (list rule)) :=
    sdo ruleset <- load (fst job) (snd job); sret (dict_set rulesets (fst job) ruleset).
  Definition load_all (o : options) : st (dict (list rule)) := sfold load_into (jobs o) [].

  (** The state of the loop 132-159: the action table of the BDD engine, single_tables and
      canonical_rulesets *)
  Record work := mkWork { w_acts : list tkey; w_single : dict (list rule); w_canon : list (string * add) }.
  (** 132-159, the body *)
  Definition process (dc : bool) (w : work) (named : string * list rule) : st work :=
    let ruleset := sort_ruleset (snd named) in
    sdo single <- to_single_table ruleset true;
    sdo n <- slift (if dc then normalise_dc SHIFT None (w_acts w) single else normalise_naive SHIFT None (w_acts w) single);
    sret (mkWork (fst n) (dict_set (w_single w) (fst named) single) (w_canon w ++ [(fst named, snd n)])).

  (** single_tables[name] *)
  Definition single_of (singles : dict (list rule)) (name : string) : result (list rule) :=
    match dict_get singles name with Some s => Ok s | None => Err KeyError end.
  (** 182-188: for first, second in zip(group_equal, group_equal[1:]) *)
  Fixpoint differences (acts : list tkey) (singles : dict (list rule)) (groups : list (list (string * add)))
    : result (list (string * string * report)) :=
    match groups with
    | first :: rest =>
      match rest with
      | second :: _ =>
        match first, second with
        | (n1, b1) :: _, (n2, b2) :: _ =>
          do s1 <- single_of singles n1;
          do s2 <- single_of singles n2;
          do sbs <- find_conflicting_paths SHIFT acts (addApply addDifference b1 b2) s1 s2 false;
          do ds <- differences (fst sbs) singles rest;
          Ok ((n1, n2, snd sbs) :: ds)
        | _, _ => Err IndexError
        end
      | [] => Ok []
      end
    | [] => Ok []
    end.
  (** 127-192: after the files are loaded *)
  Definition compare_rulesets (o : options) (rulesets : dict (list rule)) : st outcome :=
    match rulesets with
    | [] => sret Usage
    | _ :: others =>
      sdo w <- sfold (process (op_dc o)) rulesets (mkWork acts_init [] []);
      match others with
      | [] => sret Nothing
      | _ =>
        sdo groups <- slift (group_equal (w_canon w));
        sdo ds <- slift (if op_difference o then differences (w_acts w) (w_single w) groups else Ok []);
        sret (Lines (map (map fst) groups) ds)
      end
    end.
  Definition check_equivalence (o : options) : st outcome := sdo rulesets <- load_all o; compare_rulesets o rulesets.
End Tool.
