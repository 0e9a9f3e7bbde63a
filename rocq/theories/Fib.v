(** Routing tables as rules. Models ofequivalence/convert_fib.py:34-73. *)
From Verif Require Export Text Rule Merge.
Local Open Scope string_scope.
Local Open Scope list_scope.
Local Open Scope Z_scope.

(** convert_fib.py:35 *)
Definition IP_MASK : Z := 0xFFFFFFFF.

(** l[k] *)
Definition item (l : list text) (k : nat) : result text := match nth_error l k with Some x => Ok x | None => Err IndexError end.
(** output_mapping: peer -> port *)
Fixpoint peer_port (d : list (text * Z)) (k : text) : option Z :=
  match d with [] => None | (k', v) :: t => if text_eqb k' k then Some v else peer_port t k end.
(** x << n: a negative shift is a ValueError *)
Definition shl (x n : Z) : result Z := if n <? 0 then Err ValueError else Ok (Z.shiftl x n).

(** The loop state: count, output_mapping (an association list, newest first), ruleset. *)
Record fib := mkFib { fb_count : Z; fb_map : list (text * Z); fb_rules : list rule }.
(** convert_fib.py:54-71, one line *)
Definition fib_line (s : fib) (line : text) : st fib :=
  sdo q <- slift (
    let ws := words line in
    do w1 <- item ws 1;
    let subnet := Text.split "/" w1 in
    do mk <- item subnet 1; do mask <- py_int 10 mk;
    do addr <- item subnet 0;
    let ipparts := Text.split "." addr in
    do a <- item ipparts 0; do a <- py_int 10 a;
    do b <- item ipparts 1; do b <- py_int 10 b;
    do c <- item ipparts 2; do c <- py_int 10 c;
    do d <- item ipparts 3; do d <- py_int 10 d;
    let ip := Z.lor (Z.lor (Z.lor (Z.shiftl a 24) (Z.shiftl b 16)) (Z.shiftl c 8)) d in
    do m <- shl IP_MASK (32 - mask);
    Ok (ip, mask, Z.land m IP_MASK));
  let '(ip, mask, net) := q in
  sdo m <- s_append match_new "IPV4_DST" ip (Some net);
  sdo peer <- slift (item (words line) 2);
  let s' := match peer_port (fb_map s) peer with
            | Some _ => s
            | None => mkFib (fb_count s + 1) ((peer, fb_count s + 1) :: fb_map s) (fb_rules s)
            end in
  sdo port <- slift (match peer_port (fb_map s') peer with Some p => Ok p | None => Err KeyError end);
  sdo wa <- slift (as_append al_empty ("OUTPUT", VInt port));
  sret (mkFib (fb_count s') (fb_map s') (fb_rules s' ++ [mkRule (mkCore mask None m (mkInst None al_empty wa None false None) 0) []])).
(** convert_fib.py:50-73. Despite its documentation it returns the rules only. *)
Definition ruleset_from_fib (lines : list text) : st (list rule) :=
  sdo s <- sfold fib_line lines (mkFib 0 [] []); sret (fb_rules s).
