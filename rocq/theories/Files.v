(** The decorator [as_file_handle] and [open_compressed]
    (/repo/ofequivalence/utils.py:92-192).

    Simplifications of this file: Python 3 ([six.PY3] true).  Data are lists of ASCII
    characters without carriage returns, for which encoding, decoding and newline
    translation are the identity.  Streams are not repositioned.  What the decorated
    function does with its handle is a program [prog] of reads, writes and closes, which
    sees every result and every exception; its other effects are not modelled.
    A call is given at most one file object. *)
From Verif Require Import Base.
Open Scope nat_scope.

Definition data := list ascii.

(** Exceptions that occur here; [EUser] are those of the decorated function.
    io.UnsupportedOperation is a ValueError and not told apart from it. *)
Inductive ferr : Set :=
| ENotImplemented | EValue | EType | EIndex | EKey | ENotFound | EFormat | EUser (n : Z).

Inductive outcome : Set := Returned (r : Z) | Raised (e : ferr).

Inductive rres : Set := RData (text : bool) (d : data) | RErr (e : ferr).

(** What a decorated function does with its handle (utils.py:162, 177, 189 call it). *)
Inductive prog : Set :=
| PRet (r : Z)
| PRaise (e : ferr)
| PWrite (bytes : bool) (d : data) (k : option ferr -> prog)
| PRead (n : nat) (k : rres -> prog)
| PClose (k : prog).

(** A file object of the standard library: io.StringIO, a text file (s_text), io.BytesIO,
    a buffered binary file.  [s_in]: what is still to be read; [s_out]: all written. *)
Record stream : Set := Stream
  { s_text : bool; s_rd : bool; s_wr : bool; s_closed : bool; s_in : data; s_out : data }.

(** TextIOWrapper on a binary stream (utils.py:99, 105, 156, 168): characters read ahead
    and characters not yet written. *)
Record wrapper : Set := Wrapper { w_in : data; w_out : data; w_s : stream }.

Inductive fobj : Set := FS (s : stream) | FW (w : wrapper).

(** Size of a chunk of TextIOWrapper (8192 in CPython); theorems hold for any. *)
Section Chunk.
Variable chunk : nat.

(** read(n) of a stream. *)
Definition st_read (n : nat) (s : stream) : rres * stream :=
  if s_closed s || negb (s_rd s) then (RErr EValue, s)
  else (RData (s_text s) (firstn n (s_in s)),
        Stream (s_text s) (s_rd s) (s_wr s) false (skipn n (s_in s)) (s_out s)).

(** write of a stream: a text stream checks the argument, then itself; a binary stream
    that is not writable has the write of its base class, which always raises. *)
Definition st_write (b : bool) (d : data) (s : stream) : option ferr * stream :=
  let ok := (None, Stream (s_text s) (s_rd s) (s_wr s) false (s_in s) (s_out s ++ d)) in
  if s_text s then
    if b then (Some EType, s) else if s_closed s || negb (s_wr s) then (Some EValue, s) else ok
  else
    if negb (s_wr s) then (Some EValue, s) else if negb b then (Some EType, s)
    else if s_closed s then (Some EValue, s) else ok.

Definition st_close (s : stream) : stream :=
  Stream (s_text s) (s_rd s) (s_wr s) true (s_in s) (s_out s).

(** TextIOWrapper.flush: the pending characters go to the stream. *)
Definition w_flush (w : wrapper) : wrapper :=
  let s := w_s w in
  Wrapper (w_in w) []
    (Stream (s_text s) (s_rd s) (s_wr s) (s_closed s) (s_in s) (s_out s ++ w_out w)).

(** TextIOWrapper.read(n): flushes, reads ahead at least a chunk when it has too little. *)
Definition w_read (n : nat) (w0 : wrapper) : rres * wrapper :=
  if s_closed (w_s w0) || negb (s_rd (w_s w0)) then (RErr EValue, w0)
  else
    let w := w_flush w0 in
    let s := w_s w in
    let m := if List.length (w_in w) <? n then Nat.max chunk (n - List.length (w_in w)) else 0 in
    let buf := w_in w ++ firstn m (s_in s) in
    (RData true (firstn n buf),
     Wrapper (skipn n buf) []
       (Stream (s_text s) (s_rd s) (s_wr s) false (skipn m (s_in s)) (s_out s))).

(** TextIOWrapper.write: keeps the characters until there is a chunk of them. *)
Definition w_write (b : bool) (d : data) (w : wrapper) : option ferr * wrapper :=
  if b then (Some EType, w)
  else if s_closed (w_s w) || negb (s_wr (w_s w)) then (Some EValue, w)
  else
    let w' := Wrapper (w_in w) (w_out w ++ d) (w_s w) in
    (None, if chunk <=? List.length (w_out w') then w_flush w' else w').

(** TextIOWrapper.close: flushes and closes the stream below; twice is harmless. *)
Definition w_close (w : wrapper) : wrapper :=
  if s_closed (w_s w) then w
  else let w' := w_flush w in Wrapper (w_in w') (w_out w') (st_close (w_s w')).

(** TextIOWrapper.detach (utils.py:181): flushes, which fails on a closed file. *)
Definition w_detach (w : wrapper) : option ferr * stream :=
  if s_closed (w_s w) then (Some EValue, w_s w) else (None, w_s (w_flush w)).

Definition f_read n (f : fobj) : rres * fobj :=
  match f with
  | FS s => let '(r, s') := st_read n s in (r, FS s')
  | FW w => let '(r, w') := w_read n w in (r, FW w')
  end.
Definition f_write b d (f : fobj) : option ferr * fobj :=
  match f with
  | FS s => let '(r, s') := st_write b d s in (r, FS s')
  | FW w => let '(r, w') := w_write b d w in (r, FW w')
  end.
Definition f_close (f : fobj) : fobj :=
  match f with FS s => FS (st_close s) | FW w => FW (w_close w) end.

(** func running on its handle (utils.py:162, 177, 189). *)
Fixpoint run (p : prog) (f : fobj) : outcome * fobj :=
  match p with
  | PRet r => (Returned r, f)
  | PRaise e => (Raised e, f)
  | PWrite b d k => let '(r, f') := f_write b d f in run (k r) f'
  | PRead n k => let '(r, f') := f_read n f in run (k r) f'
  | PClose k => run k (f_close f)
  end.

(** ** Files on disk *)

(** [c in s] on strings. *)
Fixpoint has_ch (c : ascii) (s : string) : bool :=
  match s with EmptyString => false | String a t => Ascii.eqb c a || has_ch c t end.

(** str.endswith. *)
Fixpoint ends_with (suf s : string) : bool :=
  String.eqb suf s || match s with EmptyString => false | String _ t => ends_with suf t end.

Inductive codec : Set := Plain | Gz | Bz2.

(** Compression, by the modules gzip and bz2; [dec] fails on what is not compressed so. *)
Variable enc : codec -> data -> data.
Variable dec : codec -> data -> option data.

(** utils.py:94-107: which class opens the file; [as_file_handle] calls open_compressed
    only with [compression] (utils.py:184-186). *)
Definition codec_of (compression : bool) (f_name : string) : codec :=
  if negb compression then Plain
  else if ends_with ".gz" f_name then Gz
  else if ends_with ".bz2" f_name then Bz2
  else Plain.

Definition disk := list (string * data).
Fixpoint lookup (d : disk) (f : string) : option data :=
  match d with [] => None | (g, x) :: t => if String.eqb f g then Some x else lookup t f end.
Definition store (d : disk) (f : string) (x : data) : disk := (f, x) :: d.

(** [_open(_file, mode)] (utils.py:92-108, 184-187): modes r, rb, w, wb.  A text file is a
    TextIOWrapper, by open() itself or by utils.py:98-99, 104-105.  Simplified: what is not
    compressed as the name says is found when the file is opened, not at the first read. *)
Definition open_path (compression : bool) (f_name : string) (mode : string) (d : disk)
  : (ferr + fobj) * disk :=
  let c := codec_of compression f_name in
  let mk := fun s => if has_ch "b" mode then FS s else FW (Wrapper [] [] s) in
  if has_ch "r" mode then
    match lookup d f_name with
    | None => (inl ENotFound, d)
    | Some raw =>
        match dec c raw with
        | None => (inl EFormat, d)
        | Some x => (inr (mk (Stream false true false false x [])), d)
        end
    end
  else if has_ch "w" mode then
    (inr (mk (Stream false false true false [] [])), store d f_name [])
  else (inl EValue, d).

Definition under (f : fobj) : stream := match f with FS s => s | FW w => w_s w end.

(** Leaving the [with] (utils.py:187): the file is closed; what was written to it is then
    on disk. *)
Definition leave_path (compression : bool) (f_name mode : string) (f : fobj) (d : disk)
  : fobj * disk :=
  let f' := f_close f in
  (f', if has_ch "r" mode then d
       else store d f_name (enc (codec_of compression f_name) (s_out (under f')))).

(** ** The wrapper *)

(** An argument: the name of a file, the file object, or something else, which open() does
    not take and which has neither read nor write. *)
Inductive val : Set := VPath (f_name : string) | VFile | VOther (z : Z).
Definition kwargs := list (string * val).

Inductive slot : Set := Pos (i : nat) | Kw (name : string).

Fixpoint kget (kw : kwargs) (n : string) : option val :=
  match kw with [] => None | (m, v) :: t => if String.eqb n m then Some v else kget t n end.
Fixpoint kset (kw : kwargs) (n : string) (v : val) : kwargs :=
  match kw with
  | [] => [(n, v)]
  | (m, w) :: t => if String.eqb n m then (m, v) :: t else (m, w) :: kset t n v
  end.
Fixpoint set_nth (i : nat) (v : val) (l : list val) : list val :=
  match l, i with [], _ => [] | _ :: t, O => v :: t | x :: t, S j => x :: set_nth j v t end.

(** utils.py:137-149: finds the argument. *)
Definition locate (arg : option (string * nat)) (args : list val) (kw : kwargs)
  : ferr + (slot * val) :=
  match arg with
  | Some (name, i) =>
      match nth_error args i with
      | Some v => inr (Pos i, v)
      | None => match kget kw name with Some v => inr (Kw name, v) | None => inl EKey end
      end
  | None => match args with v :: _ => inr (Pos 0, v) | [] => inl EIndex end
  end.

(** update_arg (utils.py:140-149). *)
Definition update (sl : slot) (args : list val) (kw : kwargs) : list val * kwargs :=
  match sl with
  | Pos i => (set_nth i VFile args, kw)
  | Kw n => (args, kset kw n VFile)
  end.

(** utils.py:152-176: the check of the object handed over: the handle for func, or the
    exception raised. *)
Definition convert (mode : string) (s : stream) : ferr + fobj :=
  if has_ch "r" mode then
    match fst (st_read 0 s) with
    | RErr e => inl e
    | RData text _ =>
        if negb text && negb (has_ch "b" mode) then inr (FW (Wrapper [] [] s))
        else if text && has_ch "b" mode then inl ENotImplemented
        else inr (FS s)
    end
  else
    if negb (has_ch "b" mode) then
      match fst (st_write false [] s) with
      | None => inr (FS s)
      | Some EType => if s_closed s then inl EValue else inr (FW (Wrapper [] [] s))
      | Some e => inl e
      end
    else
      match fst (st_write true [] s) with
      | None => inr (FS s)
      | Some EType => inl ENotImplemented
      | Some e => inl e
      end.

(** State after a call: the file object of the caller, the disk, and for a path the file
    opened (None if none was). *)
Record after : Set := After
  { a_stream : stream; a_disk : disk; a_opened : option fobj }.

(** wrapper (utils.py:135-189).  [func] is what the decorated function does on given
    arguments.  Both [if] branches need the attribute, read or write; every file object of
    the standard library has both, whatever its mode. *)
Definition as_file_handle (mode : string) (compression : bool) (arg : option (string * nat))
  (func : list val -> kwargs -> prog) (args : list val) (kw : kwargs) (s : stream) (d : disk)
  : outcome * after :=
  match locate arg args kw with
  | inl e => (Raised e, After s d None)
  | inr (sl, v) =>
      let '(args', kw') := update sl args kw in
      match v with
      | VFile =>
          if has_ch "r" mode || has_ch "w" mode then
            match convert mode s with
            | inl e => (Raised e, After s d None)
            | inr f =>
                let '(o, f') := run (func args' kw') f in
                match f' with
                | FS s' => (o, After s' d None)
                | FW w =>
                    (* finally: an exception of detach replaces the outcome *)
                    match w_detach w with
                    | (None, s') => (o, After s' d None)
                    | (Some e, s') => (Raised e, After s' d None)
                    end
                end
            end
          else (Raised EType, After s d None)
      | VPath f_name =>
          match open_path compression f_name mode d with
          | (inl e, d') => (Raised e, After s d' None)
          | (inr f, d') =>
              let '(o, f') := run (func args' kw') f in
              let '(f'', d'') := leave_path compression f_name mode f' d' in
              (o, After s d'' (Some f''))
          end
      | VOther _ => (Raised EType, After s d None)
      end
  end.
End Chunk.
