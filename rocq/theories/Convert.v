(** The command convert_ruleset. Models ofequivalence/convert_ruleset.py:146-164 (main) on top of
    load_ruleset (Load.v), save_ruleset (CompressTool.v) and ruleset_to_ovs (Ovs.v).
    Simplified: the arguments are parameters and argparse is not modelled; what the functions for the
    other formats write is any function [other] of the rules to text; standard input and output are
    files like others. *)
From Verif Require Export Ovs Load CompressTool.
Local Open Scope string_scope.
Local Open Scope list_scope.
Local Open Scope Z_scope.

(** convert_ruleset.py:135-144: the functions called; the one of Open vSwitch does not look at paths *)
Definition write_with (other : writer -> list rule -> result text) (w : writer) (rs : list rule) : result text :=
  match w with WOvs => ruleset_to_ovs (map rcore rs) | _ => other w rs end.
(** convert_ruleset.py:162-163; what is in the destination, [None]: the destination is left as it is *)
Definition convert_ruleset (json pickle : st (list rule)) (other : writer -> list rule -> result text) (name : text) (rest : list loader) (source : text)
  (input_format output_format : string) : st (option text) :=
  sdo ruleset <- load_ruleset json pickle name rest source input_format;
  slift (save_ruleset (write_with other) ruleset output_format).
