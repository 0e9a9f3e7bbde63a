(** What the flows of a Table Type Pattern say. *)
From Verif Require Import Ttp.
Local Open Scope string_scope.
Local Open Scope list_scope.
Local Open Scope Z_scope.

(** The actions of OpenFlow 1.3 by what they carry. *)
Definition bare_names : list string := ["COPY_TTL_OUT"; "COPY_TTL_IN"; "DEC_MPLS_TTL"; "POP_VLAN"; "DEC_NW_TTL"; "POP_PBB"].
Definition number_names : list string :=
  ["OUTPUT"; "SET_MPLS_TTL"; "PUSH_VLAN"; "PUSH_MPLS"; "POP_MPLS"; "SET_QUEUE"; "SET_NW_TTL"; "PUSH_PBB"].
(** The action a TTP action stands for, if it is a definite one. A field whose name starts with $ is a variable. *)
Inductive says : ttp_action -> action -> Prop :=
| says_bare n k f v : In n bare_names -> says (TAct n k f v) (n, VNone)
| says_number n k f v : In n number_names -> says (TAct n k f v) (n, VInt k)
| says_set k f v : (forall s, f <> String "$"%char s) -> says (TAct "SET_FIELD" k f (TInt v)) ("SET_FIELD", VSet f v).
(** The definite actions of a list, in order. *)
Inductive all_say : list ttp_action -> list action -> Prop :=
| as_nil : all_say [] []
| as_cons a l x xs : says a x -> all_say l xs -> all_say (a :: l) (x :: xs).
Inductive definite_say : list ttp_action -> list action -> Prop :=
| ds_nil : definite_say [] []
| ds_keep a l x xs : says a x -> definite_say l xs -> definite_say (a :: l) (x :: xs)
| ds_skip a l xs : (forall x, ~ says a x) -> definite_say l xs -> definite_say (a :: l) xs.
(** The last instruction of a kind is the one in force. *)
Definition in_force (is : list ttp_instruction) (n : string) (i : ttp_instruction) : Prop :=
  exists a b, is = a ++ i :: b /\ ti_instruction i = n /\ forall j, In j b -> ti_instruction j <> n.
Definition absent (is : list ttp_instruction) (n : string) : Prop := forall j, In j is -> ti_instruction j <> n.
