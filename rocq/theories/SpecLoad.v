(** Specification for loading rulesets without naming the format (C78). *)
From Verif Require Export Load SpecMisc SpecOvs.
Import Text.
Local Open Scope string_scope.
Local Open Scope list_scope.
Local Open Scope Z_scope.

(** the file name suggests a format *)
Definition suggests (name : text) (l : loader) : Prop :=
  match l with
  | LJson => mentions (T "json") name \/ mentions (T "jsn") name
  | LPickle => mentions (T "pickle") name \/ mentions (T "pkl") name
  | LFib => mentions (T "fib") name
  | LOvs => mentions (T "ovs") name
  end.
(** an order in which Python may iterate over the other formats *)
Definition remaining (name : text) (rest : list loader) : Prop := NoDup rest /\ forall l, In l rest <-> l <> LOvs /\ ~ suggests name l.
(** the file is none that this library can read; no field is registered *)
Definition raises {A} (f : st A) : Prop := forall r, exists e, f r = (r, Err e).
(** text without flows and groups *)
Definition plain (file : text) : Prop := ~ mentions (T "actions=") file /\ ~ mentions (T "group_id=") file.
(** the text of lines: the last newline may be missing *)
Definition lines_text (lines : list text) (file : text) : Prop :=
  file = List.concat (map (fun s => s ++ [newline]) lines) \/
  exists l x, lines = l ++ [x] /\ x <> [] /\ file = List.concat (map (fun s => s ++ [newline]) l) ++ x.
(** the line is no route: its second word has no slash *)
Definition no_route (line : text) : Prop := ~ In newline line /\ exists w ws, spaced (w :: ws) line /\ match ws with w1 :: _ => ~ In "/"%char w1 | [] => True end.
