(** The automatic memory limit. Models ofequivalence/limits.py:24-68. *)
From Verif Require Export Text.
Local Open Scope string_scope.
Local Open Scope list_scope.
Local Open Scope Z_scope.

(** resource.RLIM_INFINITY, limits.py:19 *)
Definition RLIM_INFINITY : Z := -1.

(** limits.py:49-55: the first line that mentions MemFree; its second word is a number of kB.
    [None] when no line does. Lines are ASCII. *)
Fixpoint mem_free_kb (lines : list text) : result (option Z) :=
  match lines with
  | [] => Ok None
  | line :: t =>
    if contains (T "MemFree") line then
      match words line with _ :: w :: _ => rmap Some (py_int 10 w) | _ => Err IndexError end
    else mem_free_kb t
  end.
(** The result is the pair given to setrlimit, if it is called, and the return value. The
    operating system is the two inputs [orig] (getrlimit) and [meminfo] (the lines of
    /proc/meminfo, None if it cannot be opened); that setrlimit itself accepts the new pair is
    not modelled. [max_res] None makes min() raise TypeError (Python 3). *)
Definition automatically_limit_memory (m_min res_perc : Z) (max_res : option Z) (orig : Z * Z) (meminfo : option (list text))
  : result (option (Z * Z) * bool) :=
  if negb ((0 <=? res_perc) && (res_perc <=? 100)) then Err AssertionError
  else if negb ((fst orig =? RLIM_INFINITY) && (snd orig =? RLIM_INFINITY)) then Ok (None, false)
  else match meminfo with
  | None => Ok (None, false)
  | Some lines =>
    do kb <- mem_free_kb lines;
    match kb with
    | None => Ok (None, false)
    | Some kb =>
      let mem_free := kb * 1024 in
      match max_res with
      | None => Err TypeError
      | Some max_res =>
        let reserve := Z.min (res_perc * mem_free / 100) max_res in
        let new_limit := Z.max (mem_free - reserve) m_min in
        Ok (Some (new_limit, snd orig), true)
      end
    end
  end.
