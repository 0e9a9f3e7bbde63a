(** [Match.__str__] (/repo/ofequivalence/rule.py:1220-1228). *)
From Verif Require Import Base Text Format.
Open Scope Z_scope.

(** The formats of openflow_desc.py that FORMATTERS has (format_utils.py:68-74). *)
Inductive kind : Set := KDecimal | KHex | KEthernet | KIpv6 | KIpv4.

Definition formatter (k : kind) : Z -> option Z -> result text :=
  match k with
  | KDecimal => format_decimal
  | KHex => format_hex
  | KEthernet => format_ethernet
  | KIpv6 => format_ipv6
  | KIpv4 => format_ipv4
  end.

(** A match as the dict that it is: names in order, each with the value and the mask.  The
    third part of an entry is not shown and left out. *)
Definition entries := list (text * (Z * option Z)).

(** rule.py:1223-1227.  [fmt] is the format of a field, None for a name that is not in
    oxm_fields (KeyError, then format_hex). *)
Definition entry_str (fmt : text -> option kind) (e : text * (Z * option Z)) : result text :=
  let '(key, (value, mask)) := e in
  do v <- match fmt key with
          | Some k => formatter k value mask
          | None => format_hex value mask
          end;
  Ok (key ++ T ": " ++ v).

(** rule.py:1220-1228. *)
Definition match_str (fmt : text -> option kind) (m : entries) : result text :=
  do ret <- rall (map (entry_str fmt) m);
  Ok (T "{" ++ join (T ", ") ret ++ T "}").
