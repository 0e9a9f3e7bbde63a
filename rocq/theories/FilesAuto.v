(** [ruleset_from_auto] on files and file objects
    (/repo/ofequivalence/convert_ruleset.py:51-97): which loader gets to read what.

    The loaders are programs as in Files.v, in the order of f_priority (which Load.v
    models), each with its mode: rb (true) or r (false).  The number returned stands for
    the ruleset.

    Simplifications: file objects can be repositioned (a pipe cannot, its seek raises);
    what is printed about the failures (lines 95-96) is left out; the name of the source
    is a string, so that the message of line 97 can be built.  Those of Files.v apply,
    except that seek is modelled here. *)
From Verif Require Import Base Files.
Open Scope nat_scope.

(** An entry of f_priority: convert_ruleset.py:42-48 with the decorators convert_ryu.py:209, 280, convert_fib.py:38,
    convert_ovs.py:767. *)
Definition loader : Set := bool * prog.

Section Auto.
Variable chunk : nat.
Variable enc : codec -> data -> data.
Variable dec : codec -> data -> option data.

(** source.seek(0) (convert_ruleset.py:93-94) on a file object with these contents; on a
    closed one it is a ValueError, raised inside the handler and so not caught. *)
Definition seek0 (whole : data) (s : stream) : ferr + stream :=
  if s_closed s then inl EValue
  else inr (Stream (s_text s) (s_rd s) (s_wr s) false whole (s_out s)).

(** load_fn(source): convert_ruleset.py:89; all four loaders are decorated without [arg]. *)
Definition call (l : loader) (v : val) (s : stream) (d : disk) : outcome * after :=
  as_file_handle chunk enc dec (if fst l then "rb" else "r") true None (fun _ _ => snd l) [v] [] s d.

(** The loop of convert_ruleset.py:86-97 on a file object. *)
Fixpoint auto_handle (ls : list loader) (whole : data) (s : stream) (d : disk) : outcome :=
  match ls with
  | [] => Raised EValue
  | l :: t =>
      match call l VFile s d with
      | (Returned r, _) => Returned r
      | (Raised _, a) =>
          match seek0 whole (a_stream a) with
          | inl e => Raised e
          | inr s' => auto_handle t whole s' (a_disk a)
          end
      end
  end.

(** The same loop (convert_ruleset.py:86-97) on a path, which has no attribute seek. *)
Fixpoint auto_path (ls : list loader) (f : string) (s : stream) (d : disk) : outcome :=
  match ls with
  | [] => Raised EValue
  | l :: t =>
      match call l (VPath f) s d with
      | (Returned r, _) => Returned r
      | (Raised _, a) => auto_path t f (a_stream a) (a_disk a)
      end
  end.
End Auto.
