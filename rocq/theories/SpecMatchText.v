(** Matches whose text can be read back. *)
From Verif Require Import Base Text MatchText.
Open Scope Z_scope.

(** The values that a format is meant for: numbers, MAC, IPv6 and IPv4 addresses. *)
Definition in_range (k : kind) (v : Z) : Prop :=
  match k with
  | KDecimal | KHex => 0 <= v
  | KEthernet => 0 <= v < 2 ^ 48
  | KIpv6 => 0 <= v < 2 ^ 128
  | KIpv4 => 0 <= v < 2 ^ 32
  end.

Definition newline : ascii := "010".

(** A name of a field: no colon, comma or newline. *)
Definition name_ok (n : text) : Prop :=
  ~ In ":"%char n /\ ~ In ","%char n /\ ~ In newline n.

Definition readable (fmt : text -> option kind) (m : entries) : Prop :=
  forall name v mask, In (name, (v, mask)) m ->
    name_ok name /\
    let k := match fmt name with Some k => k | None => KHex end in
    in_range k v /\ match mask with Some x => in_range k x | None => True end.
