(** Properties C52, C54, C55, C64, C65: numbers and addresses as text. *)
From Verif Require Import Format SpecText FormatProofs.
From Coq Require Import ZifyBool ZifyNat ZifyN.
Local Open Scope string_scope.
Local Open Scope list_scope.
Local Open Scope Z_scope.

(** ** C52: AlphaInt numbers words a, b, ..., z, aa, ab, ... without gaps or repetitions *)
Theorem C52_letters n : 0 <= n -> exists w, alpha_z n = Ok w /\ is_word w.
Proof. intros N. destruct (alpha_word n N) as [w [E1 [E2 _]]]. eauto. Qed.
Theorem C52_order n m u v : 0 <= n -> 0 <= m -> alpha_z n = Ok u -> alpha_z m = Ok v -> (n < m <-> earlier_word u v).
Proof. exact (alpha_order n m u v). Qed.
Theorem C52_bijection w : is_word w -> exists n, 0 <= n /\ alpha_z n = Ok w /\ forall m, 0 <= m -> alpha_z m = Ok w -> m = n.
Proof.
  intros W. destruct (alpha_onto w W) as [n [N E]]. exists n. split; [auto|]. split; [auto|]. intros m M E'.
  destruct (alpha_word n N) as [w1 [Q1 [_ B1]]]. destruct (alpha_word m M) as [w2 [Q2 [_ B2]]]. assert (w1 = w2) by congruence. subst. lia.
Qed.
(** 'Z' gives the same word in capitals *)
Theorem C52_upper n w : alpha_z n = Ok w -> alpha_Z n = Ok (map (fun c => ascii_of_nat (nat_of_ascii c - 32)) w).
Proof. exact (alpha_capitals n w). Qed.
Example C52_ex : map alpha_z [0; 1; 25; 26; 27; 51; 52; 701; 702; 703] =
  map (fun s => Ok (T s)) ["a"; "b"; "z"; "aa"; "ab"; "az"; "ba"; "zz"; "aaa"; "aab"] /\ is_word (T "zz") /\ earlier_word (T "z") (T "aa").
Proof.
  split; [vm_compute; reflexivity|]. split; [|left; vm_compute; lia]. split; [discriminate|].
  repeat constructor; exists 25%nat; (split; [lia|reflexivity]).
Qed.
Example C52_upper_ex : alpha_Z 703 = Ok (T "AAB"). Proof. vm_compute. reflexivity. Qed.
Print Assumptions C52_letters.
Print Assumptions C52_order.
Print Assumptions C52_bijection.
Print Assumptions C52_upper.

(** ** C54: Ethernet and IPv4 addresses. The text itself is pinned down (six two-digit
    lower-case hex groups; four decimal groups below 256 without leading zeros). *)
Theorem C54_ethernet v : 0 <= v < 2 ^ 48 -> exists l bs, format_ethernet v None = Ok (separated ":" l) /\ List.length l = 6%nat /\
  Forall2 (numeral 16) l bs /\ Forall (fun w => List.length w = 2%nat /\ lower_case w) l /\ weigh 256 bs = v /\
  normalise_bytes (separated ":" l) = Ok v.
Proof. exact (ethernet_text v). Qed.
Theorem C54_ipv4 v : 0 <= v < 2 ^ 32 -> exists a b c d wa wb wc wd, v = weigh 256 [a; b; c; d] /\
  Forall2 (fun w n => numeral 10 w n /\ no_leading_zero w /\ 0 <= n < 256) [wa; wb; wc; wd] [a; b; c; d] /\
  format_ipv4 v None = Ok (separated "." [wa; wb; wc; wd]) /\
  normalise_bytes (separated "." [wa; wb; wc; wd]) = Ok v.
Proof. exact (ipv4_text_ok v). Qed.
(** With a mask: the two texts joined by a slash. *)
Theorem C54_masked v m a b : format_ipv4 v None = Ok a -> format_ipv4 m None = Ok b -> format_ipv4 v (Some m) = Ok (a ++ T "/" ++ b).
Proof. unfold format_ipv4, with_mask. now intros -> ->. Qed.
Theorem C54_masked_ethernet v m a b : format_ethernet v None = Ok a -> format_ethernet m None = Ok b -> format_ethernet v (Some m) = Ok (a ++ T "/" ++ b).
Proof. unfold format_ethernet, with_mask. now intros -> ->. Qed.
Example C54_ex : format_ethernet 0x00163e0a00ff None = Ok (T "00:16:3e:0a:00:ff") /\ normalise_bytes (T "00:16:3e:0a:00:ff") = Ok 0x00163e0a00ff /\
  format_ipv4 0x0a0000fe (Some 0xffffff00) = Ok (T "10.0.0.254/255.255.255.0") /\ normalise_bytes (T "10.0.0.254") = Ok 0x0a0000fe /\
  normalise_bytes (T "00-16-3E-0A-00-FF") = Ok 0x00163e0a00ff.
Proof. vm_compute. repeat split. Qed.
Print Assumptions C54_ethernet.
Print Assumptions C54_ipv4.
Print Assumptions C54_masked.
Print Assumptions C54_masked_ethernet.

(** ** C55: IPv6. format_ipv6 writes sixteen groups of one byte instead of eight of two, which
    normalise_bytes does not recognise: it reads the characters as a raw byte string. The round
    trip fails for every address. *)
Theorem C55_round_trip_refuted v : 0 <= v < 2 ^ 128 -> exists s n, format_ipv6 v None = Ok s /\ normalise_bytes s = Ok n /\ 2 ^ 128 < n /\ n <> v.
Proof. intros V. destruct (ipv6_never v V) as [s [n [E1 [E2 E3]]]]. exists s, n. repeat split; auto. lia. Qed.
Example C55_refuted : exists v s n, 0 <= v < 2 ^ 128 /\ format_ipv6 v None = Ok s /\ normalise_bytes s = Ok n /\ n <> v.
Proof. exists 1, (T "00:00:00:00:00:00:00:00:00:00:00:00:00:00:00:01"). eexists. split; [lia|]. split; [vm_compute; reflexivity|]. split; [vm_compute; reflexivity|vm_compute; discriminate]. Qed.
(** What holds: the parser reads the standard eight-group text. Missing for the full claim: the
    formatter does not write it. *)
Theorem C55_parse_partial l ns : Forall2 (fun w n => numeral 16 w n /\ n <= 0xFFFF) l ns -> List.length l = 8%nat ->
  normalise_bytes (separated ":" l) = Ok (weigh 65536 ns).
Proof. exact (ipv6_full l ns). Qed.
Example C55_ex : normalise_bytes (T "2001:db8:0:0:0:ff00:42:8329") = Ok 0x20010db8000000000000ff0000428329.
Proof. vm_compute. reflexivity. Qed.
Print Assumptions C55_round_trip_refuted.
Print Assumptions C55_parse_partial.

(** ** C64: compressed IPv6 text *)
Theorem C64_compressed_partial l r ns ms :
  Forall2 (fun w n => numeral 16 w n /\ n <= 0xFFFF) l ns -> Forall2 (fun w n => numeral 16 w n /\ n <= 0xFFFF) r ms ->
  (List.length l + List.length r <= 6 \/ (List.length l + List.length r = 7 /\ l <> [] /\ r <> []))%nat ->
  normalise_bytes (separated ":" l ++ T "::" ++ separated ":" r) =
  Ok (weigh 65536 (ns ++ repeat 0 (8 - List.length l - List.length r) ++ ms)).
Proof. exact (ipv6_compressed l r ns ms). Qed.
Example C64_ex : normalise_bytes (T "2001:db8::ff00:42:8329") = Ok 0x20010db8000000000000ff0000428329 /\ normalise_bytes (T "::1") = Ok 1 /\
  normalise_bytes (T "fe80::") = Ok (0xfe80 * 2 ^ 112) /\ normalise_bytes (T "::") = Ok 0 /\ normalise_bytes (T "1:2:3:4::6:7:8") = Ok 0x00010002000300040000000600070008.
Proof. vm_compute. repeat split. Qed.
(** Seven groups and a leading or trailing "::" (legal: RFC 4291 2.2) raise AssertionError. *)
Theorem C64_compressed_refuted : exists l ns, Forall2 (fun w n => numeral 16 w n /\ n <= 0xFFFF) l ns /\ List.length l = 7%nat /\
  normalise_bytes (separated ":" l ++ T "::") = Err AssertionError /\ normalise_bytes (T "::" ++ separated ":" l) = Err AssertionError.
Proof.
  exists (map T ["1"; "2"; "3"; "4"; "5"; "6"; "7"]), [1; 2; 3; 4; 5; 6; 7]. split.
  - repeat (constructor; [split; [constructor; [cbn; tauto|lia]|lia]|]). constructor.
  - repeat split.
Qed.
Print Assumptions C64_compressed_partial.
Print Assumptions C64_compressed_refuted.

(** ** C65: normalise_string inverts the formatters *)
Theorem C65_decimal v : exists s, format_decimal v None = Ok s /\ normalise_string s = Ok v.
Proof. exact (dec_string v). Qed.
Theorem C65_hex_partial v : 0 <= v -> exists s, format_hex v None = Ok s /\ normalise_string s = Ok v.
Proof. exact (hex_string v). Qed.
Theorem C65_ipv4 v : 0 <= v < 2 ^ 32 -> exists s, format_ipv4 v None = Ok s /\ normalise_string s = Ok v.
Proof.
  intros V. destruct (ipv4_text_ok v V) as [a [b [c [d [wa [wb [wc [wd [_ [_ [E N]]]]]]]]]]]. eexists. split; [exact E|].
  rewrite address_string; [exact N|apply dot_alien|cbn; lia].
Qed.
Theorem C65_ethernet v : 0 <= v < 2 ^ 48 -> exists s, format_ethernet v None = Ok s /\ normalise_string s = Ok v.
Proof.
  intros V. destruct (ethernet_text v V) as [l [bs [E [L [_ [_ [_ N]]]]]]]. eexists. split; [exact E|].
  rewrite address_string; [exact N|apply colon_alien|lia].
Qed.
(** A negative number in hex is written "0x-5", which is then read as raw bytes. *)
Theorem C65_hex_refuted : exists v s n, format_hex v None = Ok s /\ normalise_string s = Ok n /\ n <> v.
Proof. exists (-5), (T "0x-5"). eexists. split; [vm_compute; reflexivity|]. split; [vm_compute; reflexivity|vm_compute; discriminate]. Qed.
Example C65_ex : format_decimal (-17) None = Ok (T "-17") /\ normalise_string (T "-17") = Ok (-17) /\
  format_hex 48879 None = Ok (T "0xbeef") /\ normalise_string (T "0xbeef") = Ok 48879 /\ normalise_string (T "10.0.0.1") = Ok 0x0a000001.
Proof. vm_compute. repeat split. Qed.
Print Assumptions C65_decimal.
Print Assumptions C65_hex_partial.
Print Assumptions C65_ipv4.
Print Assumptions C65_ethernet.
Print Assumptions C65_hex_refuted.
