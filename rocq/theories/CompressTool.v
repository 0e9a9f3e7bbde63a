(** The command compress_ruleset and the function save_ruleset. Models
    ofequivalence/compress_ruleset.py:37-114 (main) and convert_ruleset.py:40,120-144 on top of the
    models of the functions they call.
    Simplified: the parsed arguments are given as a record and argparse is not modelled; [load]
    stands for convert_ruleset.load_ruleset and is any function of the format; [write] stands for
    the five functions that write a ruleset (the one of Open vSwitch is in Ovs.v) and is any
    function; timings are left out; of what is printed the numbers are kept. *)
From Verif Require Export SingleTable Normalise Compress.
Local Open Scope string_scope.
Local Open Scope list_scope.
Local Open Scope Z_scope.

(** convert_ruleset.py:40 *)
Definition OUTPUT_FORMATS : list string := ["ryu_json"; "ryu_pickle"; "pickle"; "ovs"; "text"].
Inductive writer := WRyuJson | WRyuPickle | WPickle | WOvs | WText.
(** convert_ruleset.py:135-144: which function is called; no other format is an error *)
Definition writer_of (fmt : string) : option writer :=
  if String.eqb fmt "ryu_json" then Some WRyuJson
  else if String.eqb fmt "ryu_pickle" then Some WRyuPickle
  else if String.eqb fmt "pickle" then Some WPickle
  else if String.eqb fmt "ovs" then Some WOvs
  else if String.eqb fmt "text" then Some WText
  else None.

(** compress_ruleset.py:42-65. [co_bdd]: --bdd, [co_headerspace]: --headerspace; [co_output]: whether
    --output is given. *)
Record coptions := mkCoptions { co_format : string; co_single : bool; co_direct : bool; co_bdd : bool; co_headerspace : bool;
  co_output : bool; co_output_format : string }.
(** What the command has done: the sizes printed in lines 87, 92 and 106, the values of the
    variables [ruleset] and [compressed_ruleset] in line 106 (the latter as positions in the former),
    the contents of the output file, and the size printed in line 114 or the exception raised in 113. *)
Record crun {F} := mkCrun { cr_loaded : nat; cr_table : option nat; cr_ruleset : list rule; cr_kept : list nat; cr_from_to : nat * nat;
  cr_file : option F; cr_last : result (option nat) }.
Arguments crun : clear implicits.

Section CompressTool.
  Context {F : Type} (SHIFT one : Z) (ord : list nat -> list nat) (edge_ord : list edge -> list edge).
  Context (load : string -> st (list rule)) (write : writer -> list rule -> result F).

  (** convert_ruleset.py:120-144 save_ruleset; [None]: the destination is left as it is *)
  Definition save_ruleset (ruleset : list rule) (fmt : string) : result (option F) :=
    match writer_of fmt with Some w => do f <- write w ruleset; Ok (Some f) | None => Ok None end.

  (** compress_ruleset.py:67-71: the keyword argument use_bdd, if there is one *)
  Definition extra (o : coptions) : option bool := if co_headerspace o then Some false else if co_bdd o then Some true else None.

  (** ruleset_deps_direct.py:103-141 and ruleset_deps_indirect.py:85-118 on the rules of a table *)
  Definition prefix_deps_bdd (objs : list (nat * rule)) : result (list (edge * add)) :=
    do l <- prefix_sort objs;
    do _ <- prefix_head l;
    do ns <- attach SHIFT one l;
    match ns with [] => Err IndexError | d :: t => prefix_bdd [d] t [] end.
  Definition prefix_deps_wc (objs : list (nat * rule)) : result (list (edge * Z)) :=
    do l <- prefix_sort objs;
    do d <- prefix_head l;
    prefix_wc [d] (tl l) [].
  Definition prefix_deps_all (objs : list (nat * rule)) : result (list edge) :=
    do l <- prefix_sort objs;
    do d <- prefix_head l;
    prefix_all [d] (tl l) [].

  (** ruleset_deps_direct.py:276-283 with use_bdd=False *)
  Definition goto_deps_hs (ns : list node) (s : list (edge * headerspace)) (R : node) : st (list (edge * headerspace)) :=
    match goto_table (ninst R) with
    | None => sret s
    | Some t => if ntable R <? t then add_parents_hs R (filter (fun x => ntable x =? t) ns) s else slift (Err AssertionError)
    end.
  (** 243-285 build_ruleset_deps with use_bdd=False. The condition of line 253 compares two
      different functions and is never true, so use_bdd stays False; the incremental builder works
      with BDDs all the same. The dict [reaches] has values of both kinds, which nothing reads: only
      the keys are kept here. *)
  Definition build_ruleset_deps_hs (build : list (nat * rule) -> st (list edge)) (rs : list rule) : st (list edge) :=
    let objs := objects rs in
    sdo reaches <- sfold (fun reaches t => sdo d <- build (with_table t objs); sret (fold_left eadd d reaches)) (Deps.tables_of objs) [];
    sdo s <- sfold (goto_deps_hs (bare objs)) (bare objs) [];
    sret (fold_left eadd (map fst s) reaches).
  (** the keys of a dict *)
  Definition skeys {V} (c : st (list (edge * V))) : st (list edge) := sdo d <- c; sret (map fst d).
  Definition direct_deps (fib : bool) (use_bdd : option bool) (rs : list rule) : st (list edge) :=
    match use_bdd with
    | Some false =>
      build_ruleset_deps_hs (fun objs => if fib then skeys (slift (prefix_deps_wc objs)) else skeys (table_deps_incremental SHIFT one ord objs)) rs
    | _ => build_ruleset_deps SHIFT one (fun objs => if fib then slift (prefix_deps_bdd objs) else table_deps_incremental SHIFT one ord objs) rs
    end.
  (** ruleset_deps_indirect.py:140-165. The prefix builder takes no argument use_bdd (TypeError). *)
  Definition indirect_build (fib : bool) (use_bdd : option bool) (objs : list (nat * rule)) : st (list edge) :=
    if fib then slift (match use_bdd with None => prefix_deps_all objs | Some _ => Err TypeError end)
    else match use_bdd with Some true => ind_table_deps_bdd SHIFT one objs | _ => ind_table_deps objs end.
  Definition indirect_deps (fib : bool) (use_bdd : option bool) (rs : list rule) : st (list edge) :=
    let objs := objects rs in
    sdo _ <- (match use_bdd with Some true => slift (attach SHIFT one objs) | _ => sret [] end);
    sdo e <- ind_goto_edges objs;
    sdo e <- sfold (fun e t => sdo d <- indirect_build fib use_bdd (with_table t objs); sret (fold_left eadd d e)) (table_keys objs) e;
    sret (edge_ord e).
  (** compress_ruleset.py:77-82 and 97-101 *)
  Definition tool_deps (o : coptions) (rs : list rule) : st (list edge) :=
    let fib := String.eqb (co_format o) "fib" in
    if co_direct o then direct_deps fib (extra o) rs else indirect_deps fib (extra o) rs.

  (** the rules at the positions *)
  Definition pick (rs : list rule) (is : list nat) : list rule :=
    flat_map (fun i => match nth_error rs i with Some R => [R] | None => [] end) is.
  (** compress_ruleset.py:84-92 *)
  Definition prepare (o : coptions) (loaded : list rule) : st (list rule) :=
    if co_single o then to_single_table loaded false else sret loaded.
  (** compress_ruleset.py:112-114; the single table is an OpenFlow one *)
  Definition last_size (o : coptions) (compressed : list rule) : st (result (option nat)) :=
    fun r => if co_single o then (r, Ok (Ok None)) else
             match to_single_table compressed true r with (r', Ok s) => (r', Ok (Ok (Some (List.length s)))) | (r', Err e) => (r', Ok (Err e)) end.
  (** compress_ruleset.py:67-114. Line 110 saves [ruleset], not [compressed_ruleset]. *)
  Definition compress_main (o : coptions) : st (crun F) :=
    sdo loaded <- load (co_format o);
    sdo ruleset <- prepare o loaded;
    let table := if co_single o then Some (List.length ruleset) else None in
    let ruleset := sort_ruleset ruleset in
    sdo deps <- tool_deps o ruleset;
    sdo c <- slift (compress_deps ord ruleset deps);
    let compressed := pick ruleset (fst c) in
    sdo file <- slift (if co_output o then save_ruleset ruleset (co_output_format o) else Ok None);
    sdo last <- last_size o compressed;
    sret (mkCrun F (List.length loaded) table ruleset (fst c) (List.length ruleset, List.length (fst c)) file last).
End CompressTool.
