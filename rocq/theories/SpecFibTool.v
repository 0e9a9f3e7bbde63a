(** Specification side of routing tables in check_equivalence. *)
From Verif Require Export SpecMisc.
Local Open Scope string_scope.
Local Open Scope list_scope.
Local Open Scope Z_scope.

(** The route that the table has for an address: the longest prefix that contains it, the earlier of
    two with the same length. *)
Definition best_route (rs : list route) (n : Z) (r : route) : Prop :=
  exists l1 l2, rs = l1 ++ r :: l2 /\ covers r n /\
  (forall x, In x l1 -> covers x n -> ro_len x < ro_len r) /\ (forall x, In x l2 -> covers x n -> ro_len x <= ro_len r).
Definition no_route_for (rs : list route) (n : Z) : Prop := forall r, In r rs -> ~ covers r n.
(** The peer to which a packet for the address is sent. *)
Definition next_hop (rs : list route) (n : Z) (w : option (list ascii)) : Prop :=
  match w with Some w => exists r, best_route rs n r /\ ro_peer r = w | None => no_route_for rs n end.
(** Peer [w] is the [k]-th to appear in the table. *)
Definition numbered (peers : list (list ascii)) (w : list ascii) (k : Z) : Prop :=
  exists l1 l2, peers = l1 ++ w :: l2 /\ ~ In w l1 /\ k = 1 + Z.of_nat (List.length (nodup (list_eq_dec ascii_dec) l1)).
(** The number of that peer. *)
Definition hop_number (rs : list route) (n : Z) (k : option Z) : Prop :=
  match k with
  | Some k => exists r, best_route rs n r /\ numbered (map ro_peer rs) (ro_peer r) k
  | None => no_route_for rs n
  end.
