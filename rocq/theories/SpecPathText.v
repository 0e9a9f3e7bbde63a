(** How a report of differing paths should look, line by line. *)
From Verif Require Import Base Text PathText.
Open Scope nat_scope.

(** The parts of a rule are shown on one line each. *)
Definition plain (r : shown) : Prop :=
  ~ In nl (sh_priority r) /\ ~ In nl (sh_cookie r) /\ ~ In nl (sh_match r) /\
  ~ In nl (sh_instructions r) /\ ~ In nl (sh_table r).

(** The lines of the first rule of a path: margin [a], and [b] before the match. *)
Definition lines_with (a b : text) (r : shown) : list text :=
  [ a ++ T "Rule(";
    a ++ tab :: T "priority: " ++ sh_priority r;
    a ++ tab :: T "cookie: " ++ sh_cookie r;
    b ++ tab :: T "match: " ++ sh_match r;
    a ++ tab :: T "instructions: " ++ sh_instructions r;
    a ++ tab :: T "table: " ++ sh_table r ++ T ")" ].

(** A path: the first rule without a margin, every other with a tab and one arrow, which
    points at its match. *)
Definition path_lines (path : list shown) : list text :=
  match path with
  | [] => []
  | r :: t => lines_with [] [] r ++ flat_map (lines_with [tab] (tab :: T "--> ")) t
  end.

(** Lines as a text: each ended by a newline. *)
Definition unlines (l : list text) : text := flat_map (fun x => x ++ [nl]) l.

(** The report: each path, an empty line, then indented the paths it is related to, each
    followed by a line with a tab. *)
Definition report_lines (sbs : list (list shown * list (list shown))) : list text :=
  flat_map (fun p => path_lines (fst p) ++ [] ::
     flat_map (fun q => map (cons tab) (path_lines q) ++ [[tab]]) (snd p)) sbs.

Definition plain_report (sbs : list (list shown * list (list shown))) : Prop :=
  forall p, In p sbs -> Forall plain (fst p) /\ Forall (Forall plain) (snd p).
