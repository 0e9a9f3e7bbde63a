(** How the differences found with -D are printed:
    [Rule.__str__] (/repo/ofequivalence/rule.py:305-309), [format_path] and the loop that
    calls it (/repo/ofequivalence/check_equivalence.py:184-208).

    Simplification: the texts of the five parts of a rule are given ([str] of an int or
    None, [Match.__str__], [Instructions.__str__]). *)
From Verif Require Import Base Text.
Open Scope nat_scope.

Definition nl : ascii := "010".
Definition tab : ascii := "009".

(** The texts of the parts of a rule that [Rule.__str__] shows. *)
Record shown : Set := Shown
  { sh_priority : text; sh_cookie : text; sh_match : text; sh_instructions : text; sh_table : text }.

(** Rule.__str__ (rule.py:305-309). *)
Definition rule_str (r : shown) : text :=
  T "Rule(" ++ nl :: tab :: T "priority: " ++ sh_priority r ++
  nl :: tab :: T "cookie: " ++ sh_cookie r ++
  nl :: tab :: T "match: " ++ sh_match r ++
  nl :: tab :: T "instructions: " ++ sh_instructions r ++
  nl :: tab :: T "table: " ++ sh_table r ++ T ")".

(** The list comprehension of check_equivalence.py:206: [i == halfway] with
    [halfway = len(lines) / 2], which compares 2 * i with the length. *)
Fixpoint mark_lines (i n : nat) (lines : list text) : list text :=
  match lines with
  | [] => []
  | l :: t => (if 2 * i =? n then tab :: T "--> " ++ l else tab :: l) :: mark_lines (S i) n t
  end.

(** One turn of the loop of format_path (check_equivalence.py:199-207). *)
Definition add_rule (build : text) (r : shown) : text :=
  match build with
  | [] => build ++ rule_str r ++ [nl]
  | _ =>
      let lines := split nl (rule_str r) in
      (build ++ join [nl] (mark_lines 0 (List.length lines) lines)) ++ [nl]
  end.

(** format_path (check_equivalence.py:195-208). *)
Definition format_path (path : list shown) : text := fold_left add_rule path [].

(** What the loop over [sbs] prints (check_equivalence.py:189-192); print adds a newline.
    The dict is the list of its items in order. *)
Definition print_path (p : list shown * list (list shown)) : text :=
  format_path (fst p) ++ nl ::
  flat_map (fun q => join [nl] (map (cons tab) (split nl (format_path q))) ++ [nl]) (snd p).
Definition print_report (sbs : list (list shown * list (list shown))) : text :=
  flat_map print_path sbs.
