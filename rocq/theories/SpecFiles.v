(** What is expected of a file handed to a function, independently of how
    /repo/ofequivalence/utils.py:92-192 gets it: a file without buffers or layers. *)
From Verif Require Import Base Files.
Open Scope nat_scope.

(** The function on a plain file of the kind asked for, never closed: reading takes from
    the front of [i], writing appends to [o]; the wrong kind of data is a TypeError, a
    direction the file does not have a ValueError. *)
Fixpoint ideal (text rd wr : bool) (p : prog) (i o : data) : outcome * (data * data) :=
  match p with
  | PRet r => (Returned r, (i, o))
  | PRaise e => (Raised e, (i, o))
  | PWrite b d k =>
      if text && b then ideal text rd wr (k (Some EType)) i o
      else if negb wr then ideal text rd wr (k (Some EValue)) i o
      else if negb text && negb b then ideal text rd wr (k (Some EType)) i o
      else ideal text rd wr (k None) i (o ++ d)
  | PRead n k =>
      if rd then ideal text rd wr (k (RData text (firstn n i))) (skipn n i) o
      else ideal text rd wr (k (RErr EValue)) i o
  | PClose k => ideal text rd wr k i o
  end.

(** The function leaves its handle open, whatever it reads and whatever fails. *)
Fixpoint keeps_open (p : prog) : Prop :=
  match p with
  | PRet _ | PRaise _ => True
  | PWrite _ _ k => forall r, keeps_open (k r)
  | PRead _ k => forall r, keeps_open (k r)
  | PClose _ => False
  end.

(** The four modes the project uses. *)
Definition mode_of (writing binary : bool) : string :=
  match writing, binary with
  | false, false => "r" | false, true => "rb" | true, false => "w" | true, true => "wb"
  end%string.

(** How a file of this name is compressed. *)
Definition compressed_as (compression : bool) (f : string) (c : codec) : Prop :=
  match c with
  | Gz => compression = true /\ exists pre, f = (pre ++ ".gz")%string
  | Bz2 => compression = true /\ exists pre, f = (pre ++ ".bz2")%string
  | Plain => compression = false \/
             ~ (exists pre, f = (pre ++ ".gz")%string) /\ ~ (exists pre, f = (pre ++ ".bz2")%string)
  end.

(** Which value is the file: the argument at the position, else the one of the name;
    without [arg] the first argument. *)
Definition file_arg (arg : option (string * nat)) (args : list val) (kw : kwargs) (v : val) : Prop :=
  match arg with
  | None => nth_error args 0 = Some v
  | Some (name, i) =>
      nth_error args i = Some v \/ List.length args <= i /\ kget kw name = Some v
  end.

(** The arguments func gets: the file in that place, all else as given. *)
Definition handed (arg : option (string * nat)) (args : list val) (kw : kwargs)
  (args' : list val) (kw' : kwargs) : Prop :=
  let at_pos i := kw' = kw /\ List.length args' = List.length args /\
                  forall j, nth_error args' j = if j =? i then Some VFile else nth_error args j in
  match arg with
  | None => at_pos 0
  | Some (name, i) =>
      (i < List.length args -> at_pos i) /\
      (List.length args <= i -> args' = args /\
         forall m, kget kw' m = if String.eqb m name then Some VFile else kget kw m)
  end.
