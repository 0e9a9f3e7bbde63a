(** Loading rulesets of any format. Models ofequivalence/convert_ruleset.py:37-117. *)
From Verif Require Export Fib Ovs.
Import Text.
Local Open Scope string_scope.
Local Open Scope list_scope.
Local Open Scope Z_scope.

(** convert_ruleset.py:42-48: the functions in _input_load_fn. "pickle" and "ryu_pickle" are the same. *)
Inductive loader := LJson | LPickle | LFib | LOvs.
(** convert_ruleset.py:71-79: the formats that the name suggests *)
Definition hinted (name : text) : list loader :=
  (if contains (T "json") name || contains (T "jsn") name then [LJson] else []) ++
  (if contains (T "pickle") name || contains (T "pkl") name then [LPickle] else []) ++
  (if contains (T "fib") name then [LFib] else []) ++
  (if contains (T "ovs") name then [LOvs] else []).
(** convert_ruleset.py:82-84: [rest] is the set of the loaders that were not hinted, less the one of
    Open vSwitch, in the order of the iteration over a set of functions (unspecified) *)
(** the variable f_priority *)
Definition load_order (name : text) (rest : list loader) : list loader := hinted name ++ rest ++ [LOvs].

(** the lines that iterating over a file gives: convert_fib.py:54. Their line ends are dropped here. *)
Definition file_iter (file : text) : list text :=
  let l := split newline file in match last l [] with [] => removelast l | _ => l end.
(** convert_ruleset.py:89-90. The json and pickle libraries with convert_ryu.py:209-231,280-316 are
    arguments: what they do with this file. [source] is a path, as the command line gives it: every
    loader opens the file again (for a handle there is source.seek(0)). The fields which a failing
    Open vSwitch loader registers are dropped (they change no rule, only later numbers). *)
Definition load (json pickle : st (list rule)) (file : text) (l : loader) : st (list rule) :=
  match l with
  | LJson => json
  | LPickle => pickle
  | LFib => ruleset_from_fib (file_iter file)
  | LOvs => fun r => match ruleset_from_ovs r file with
                     | Ok (r', cs) => (r', Ok (map (fun c => mkRule c []) cs))
                     | Err e => (r, Err e)
                     end
  end.
(** convert_ruleset.py:86-97: every Exception is caught; what is printed is left out *)
Fixpoint load_first (json pickle : st (list rule)) (file : text) (ls : list loader) : st (list rule) :=
  fun r =>
  match ls with
  | [] => (r, Err ValueError)
  | l :: t => match load json pickle file l r with
              | (r', Ok x) => (r', Ok x)
              | (r', Err _) => load_first json pickle file t r'
              end
  end.
(** convert_ruleset.py:51-97 ruleset_from_auto *)
Definition ruleset_from_auto (json pickle : st (list rule)) (name : text) (rest : list loader) (file : text) : st (list rule) :=
  load_first json pickle file (load_order name rest).
(** convert_ruleset.py:100-117 load_ruleset; reading standard input is left out *)
Definition load_ruleset (json pickle : st (list rule)) (name : text) (rest : list loader) (file : text) (fmt : string) : st (list rule) :=
  if String.eqb fmt "auto" then ruleset_from_auto json pickle name rest file
  else if String.eqb fmt "ryu_json" then load json pickle file LJson
  else if String.eqb fmt "pickle" || String.eqb fmt "ryu_pickle" then load json pickle file LPickle
  else if String.eqb fmt "ovs" then load json pickle file LOvs
  else if String.eqb fmt "fib" then load json pickle file LFib
  else fun r => (r, Err ValueError).
