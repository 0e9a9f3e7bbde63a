(** Theorems for C01-C10 and C58: wildcards, matches, header spaces, field ids. *)
From Verif Require Import Base Fields Spec Wildcard Match WildcardProofs MortonProofs MatchWcProofs MatchProofs HSProofs.
From Coq Require Import String.
Local Open Scope string_scope.
Local Open Scope Z_scope.

(** ** C01 *)
Theorem C01_wildcard_intersect_is_packet_intersection : forall a b,
  (forall p, accepts (wildcard_intersect a b) p <-> accepts a p /\ accepts b p) /\
  (wildcard_intersect a b = 0 <-> ~ exists p, accepts a p /\ accepts b p).
Proof. exact (fun a b => conj (wildcard_intersect_accepts a b) (wildcard_intersect_zero a b)). Qed.
Theorem C01_match_overlaps : forall ops a b,
  In a (s_ms (mrun ops)) -> In b (s_ms (mrun ops)) ->
  exists a' b' wa wb, match_get_wildcard a = Ok (a', wa) /\ match_get_wildcard b = Ok (b', wb) /\
  (match_overlaps wa wb = true <->
   exists p, match_accepts (items_view (m_items a)) p /\ match_accepts (items_view (m_items b)) p).
Proof. exact session_overlaps. Qed.

(** Two matches on different fields overlap; two different values of one field do not. *)
Definition ex_ops : list mop :=
  [ONew [("VLAN_VID", (4097, None))]; ONew [("IPV4_SRC", (167772160, Some 4278190080))];
   ONew [("VLAN_VID", (4098, None))]].
Definition ex_wc (i : nat) : Z :=
  match nth_error (s_ms (mrun ex_ops)) i with
  | Some m => match match_get_wildcard m with Ok (_, w) => w | Err _ => 0 end
  | None => 0
  end.
Example C01_ex : match_overlaps (ex_wc 0) (ex_wc 1) = true /\ match_overlaps (ex_wc 0) (ex_wc 2) = false /\
  ex_wc 0 <> ex_wc 1 /\ ex_wc 0 <> 0.
Proof. vm_compute. repeat split; discriminate. Qed.
Print Assumptions C01_wildcard_intersect_is_packet_intersection.
Print Assumptions C01_match_overlaps.

(** ** C02 *)
Theorem C02_is_subset_decides_inclusion : forall a b, wc_ok a ->
  (wildcard_is_subset a b = true <-> forall p, accepts a p -> accepts b p).
Proof. exact subset_spec. Qed.
Theorem C02_match_issubset : forall ops a b,
  In a (s_ms (mrun ops)) -> In b (s_ms (mrun ops)) ->
  exists a' b' wa wb, match_get_wildcard a = Ok (a', wa) /\ match_get_wildcard b = Ok (b', wb) /\
  (match_issubset wa wb = true <->
   forall p, match_accepts (items_view (m_items a)) p -> match_accepts (items_view (m_items b)) p).
Proof. exact session_issubset. Qed.
Definition ex_ops2 : list mop :=
  [ONew [("IPV4_SRC", (167772160, Some 4278190080))]; ONew [("IPV4_SRC", (167837696, Some 4294901760))]].
Definition ex_wc2 (i : nat) : Z :=
  match nth_error (s_ms (mrun ex_ops2)) i with
  | Some m => match match_get_wildcard m with Ok (_, w) => w | Err _ => 0 end
  | None => 0
  end.
Example C02_ex : match_issubset (ex_wc2 1) (ex_wc2 0) = true /\ match_issubset (ex_wc2 0) (ex_wc2 1) = false.
Proof. vm_compute. auto. Qed.
Print Assumptions C02_is_subset_decides_inclusion.
Print Assumptions C02_match_issubset.

(** ** C03 *)
Theorem C03_union_cover_least : forall a b, wc_ok a -> wc_ok b ->
  (forall p, accepts a p \/ accepts b p -> accepts (wildcard_union_cover a b) p) /\
  (forall c, (forall p, accepts a p \/ accepts b p -> accepts c p) ->
             forall p, accepts (wildcard_union_cover a b) p -> accepts c p).
Proof.
  exact (fun a b Ha Hb => conj
    (fun p H => match H with or_introl h => accepts_lor_l a b p h | or_intror h => accepts_lor_r a b p h end)
    (fun c Hc => union_cover_least a b c Ha Hb (fun p h => Hc p (or_introl h)) (fun p h => Hc p (or_intror h)))).
Qed.
Theorem C03_match_union_cover : forall ops a b,
  In a (s_ms (mrun ops)) -> In b (s_ms (mrun ops)) ->
  exists a' b' wa wb r m, match_get_wildcard a = Ok (a', wa) /\ match_get_wildcard b = Ok (b', wb) /\
  match_union_cover (s_reg (mrun ops)) wa wb = Ok (r, m) /\
  (forall p, match_accepts (items_view (m_items a)) p \/ match_accepts (items_view (m_items b)) p ->
             match_accepts (items_view (m_items m)) p) /\
  (forall c, (forall p, match_accepts (items_view (m_items a)) p \/ match_accepts (items_view (m_items b)) p ->
                        match_accepts c p) ->
             forall p, match_accepts (items_view (m_items m)) p -> match_accepts c p).
Proof. exact session_union_cover. Qed.
(** VLAN 4097 and 4098 differ in the two lowest bits: the cover fixes the other eleven. *)
Example C03_ex : rmap (fun rm => items_view (m_items (snd rm)))
    (match_union_cover registry_init (ex_wc 0) (ex_wc 2)) = Ok [("VLAN_VID", (4096, Some 8188))].
Proof. vm_compute. reflexivity. Qed.
Print Assumptions C03_union_cover_least.
Print Assumptions C03_match_union_cover.

(** ** C04 *)
Theorem C04_wildcard_of_match : forall ms,
  exists w, flow_matches_to_wildcard ms = Ok w /\ wc_range w /\
  (forall p, accepts w p <-> match_accepts ms p) /\ (NoDup (map fst ms) -> wc_ok w).
Proof.
  exact (fun ms => match wildcard_of_match ms with
    | ex_intro _ w (conj E (conj R (conj _ (conj A Zf)))) =>
        ex_intro _ w (conj E (conj R (conj A (fun nd => conj R (Zf nd)))))
    end).
Qed.
Theorem C04_match_get_wildcard : forall ops m, In m (s_ms (mrun ops)) ->
  exists m' w, match_get_wildcard m = Ok (m', w) /\ wc_ok w /\ padding_open w /\
  forall p, accepts w p <-> match_accepts (items_view (m_items m)) p.
Proof. exact session_wildcard. Qed.
(** A masked field, an exact field and an unknown field: six tbits per constrained bit. *)
Example C04_ex : exists w, flow_matches_to_wildcard
    [("IPV4_SRC", (167772160, Some 4278190080)); ("IP_PROTO", (6, None)); ("NO_SUCH_FIELD", (1, None))] = Ok w /\
  w <> WC_FULLWC /\
  flow_matches_to_wildcard [("IP_PROTO", (6, None)); ("IPV4_SRC", (167772161, Some 4278190080))] = Ok w.
Proof. eexists. split; [vm_compute; reflexivity|]. split; vm_compute; [discriminate|reflexivity]. Qed.
Print Assumptions C04_wildcard_of_match.
Print Assumptions C04_match_get_wildcard.

(** ** C05 *)
Theorem C05_wildcard_match_round_trip : forall r wc, reg_ok r -> wc_ok wc -> padding_open wc ->
  exists r' m, flow_wildcard_to_flowmatches r wc = Ok (r', m) /\
  m_cache m = Some wc /\ flow_matches_to_wildcard (items_view (m_items m)) = Ok wc /\
  (forall it, In it (items_view (m_items m)) -> item_canonical it).
Proof.
  exact (fun r wc Hr Hw Hp => match from_wildcard_ok r wc Hr Hw Hp with
    | ex_intro _ r' (ex_intro _ m (conj E (conj _ (conj _ (conj _ (conj C (conj F Hit))))))) =>
        ex_intro _ r' (ex_intro _ m (conj E (conj C (conj F Hit))))
    end).
Qed.
(** A wildcard that constrains a padding tbit (none is ever built from a match) is not
    convertible: the padding entry of bit2field is no field. *)
Theorem C05_padding_constrained : forall wc, wc_range wc -> ~ padding_open wc ->
  flow_wildcard_to_fields wc = Err KeyError.
Proof. exact to_fields_padding_fails. Qed.
Example C05_ex : rmap (fun rm => items_view (m_items (snd rm)))
    (flow_wildcard_to_flowmatches registry_init (wildcard_intersect (ex_wc 0) (ex_wc 1))) =
  Ok [("IPV4_SRC", (167772160, Some 4278190080)); ("VLAN_VID", (4097, None))]
  \/ rmap (fun rm => items_view (m_items (snd rm)))
    (flow_wildcard_to_flowmatches registry_init (wildcard_intersect (ex_wc 0) (ex_wc 1))) =
  Ok [("VLAN_VID", (4097, None)); ("IPV4_SRC", (167772160, Some 4278190080))].
Proof. vm_compute. auto. Qed.
Print Assumptions C05_wildcard_match_round_trip.
Print Assumptions C05_padding_constrained.

(** ** C06: refuted. The intersection of disjoint matches always raises KeyError. *)
Theorem C06_disjoint_intersection_refuted : exists ops a b wa wb,
  nth_error (s_ms (mrun ops)) 0 = Some a /\ nth_error (s_ms (mrun ops)) 1 = Some b /\
  rmap snd (match_get_wildcard a) = Ok wa /\ rmap snd (match_get_wildcard b) = Ok wb /\
  match_intersection (s_reg (mrun ops)) wa wb = Err KeyError.
Proof.
  exists [ONew [("VLAN_VID", (4097, None))]; ONew [("VLAN_VID", (4098, None))]].
  do 4 eexists. repeat (split; [vm_compute; reflexivity|]). vm_compute. reflexivity.
Qed.
Theorem C06_intersection_partial : forall ops a b,
  In a (s_ms (mrun ops)) -> In b (s_ms (mrun ops)) ->
  exists a' b' wa wb, match_get_wildcard a = Ok (a', wa) /\ match_get_wildcard b = Ok (b', wb) /\
  ((~ exists p, match_accepts (items_view (m_items a)) p /\ match_accepts (items_view (m_items b)) p) ->
   match_intersection (s_reg (mrun ops)) wa wb = Err KeyError) /\
  ((exists p, match_accepts (items_view (m_items a)) p /\ match_accepts (items_view (m_items b)) p) ->
   exists r m, match_intersection (s_reg (mrun ops)) wa wb = Ok (r, m) /\
   forall p, match_accepts (items_view (m_items m)) p <->
     match_accepts (items_view (m_items a)) p /\ match_accepts (items_view (m_items b)) p).
Proof. exact session_intersection_disjoint. Qed.
Print Assumptions C06_disjoint_intersection_refuted.
Print Assumptions C06_intersection_partial.

(** ** C07 *)
Theorem C07_morton_interleaves : forall a b, 0 <= a -> 0 <= b ->
  exists m, interleaved a b m /\ morton_number_py a b = Ok m /\ morton_number_lut a b = Ok m /\
            morton_number_pdep32 a b = Ok m /\ morton_number_pdep64 a b = Ok m.
Proof. exact morton_all_agree. Qed.
Theorem C07_RMorton_inverts : forall a b m, 0 <= a -> 0 <= b -> interleaved a b m -> RMorton m = Ok (a, b).
Proof. exact RMorton_inverts. Qed.
Theorem C07_RMorton_total : forall num, 0 <= num ->
  exists a b, RMorton num = Ok (a, b) /\ interleaved a b num.
Proof.
  exact (fun num H => match RMorton_ok num H with
    | ex_intro _ a (ex_intro _ b (conj E (conj _ (conj _ Hs)))) =>
        ex_intro _ a (ex_intro _ b (conj E (conj H (fun i Hi => match Hs i Hi with conj x y => conj (eq_sym x) (eq_sym y) end))))
    end).
Qed.
Example C07_ex : morton_number_py (2 ^ 70 + 5) 3 = Ok (2 ^ 140 + 27) /\
  morton_number_pdep64 (2 ^ 70 + 5) 3 = Ok (2 ^ 140 + 27) /\ RMorton (2 ^ 140 + 27) = Ok (2 ^ 70 + 5, 3).
Proof. vm_compute. auto. Qed.
Print Assumptions C07_morton_interleaves.
Print Assumptions C07_RMorton_inverts.
Print Assumptions C07_RMorton_total.

(** ** C08 *)
Theorem C08_wildcards_canonical : forall a b, wc_ok a -> wc_ok b ->
  (a = b <-> forall p, accepts a p <-> accepts b p).
Proof.
  exact (fun a b Ha Hb => conj (fun e p => eq_rect a (fun z => accepts a p <-> accepts z p) (iff_refl _) b e)
                               (wc_canonical a b Ha Hb)).
Qed.
Example C08_ex : wc_ok (ex_wc 0) /\ wc_ok (ex_wc 1) /\ ex_wc 0 <> ex_wc 1.
Proof.
  split; [|split]; [apply wc_okb_ok; vm_compute; reflexivity|apply wc_okb_ok; vm_compute; reflexivity|].
  vm_compute. discriminate.
Qed.
Print Assumptions C08_wildcards_canonical.

(** ** C09 *)
Theorem C09_match_bookkeeping : forall ops m, In m (s_ms (mrun ops)) ->
  (forall name i b, dict_get (s_reg (mrun ops)) name = Some (i, b) ->
     (Z.testbit (m_required m) i = true <-> In name (map fst (m_items m)))) /\
  (forall w, m_cache m = Some w -> flow_matches_to_wildcard (items_view (m_items m)) = Ok w) /\
  (forall m', In m' (s_ms (mrun ops)) -> match_eqb m m' = true ->
     exists a b w, match_get_wildcard m = Ok (a, w) /\ match_get_wildcard m' = Ok (b, w)).
Proof. exact session_bookkeeping. Qed.
(** A history with an append after the wildcard was cached, a delete, a run-time field, an
    intersection and a copy. *)
Definition ex_ops3 : list mop :=
  [ONew [("VLAN_VID", (4097, None)); ("VLAN_PCP", (3, Some 7))]; OWildcard 0;
   OAppend 0 "MY_FIELD" 5 None; ODel 0 "VLAN_PCP"; ONew [("IPV4_SRC", (1, Some 255))];
   OIntersect 0 1; OCopy 2 [("IP_DSCP", (1, None))] ["VLAN_VID"]; OWildcard 3].
Example C09_ex : map (fun m => (map fst (m_items m), match m_cache m with Some _ => true | None => false end))
    (s_ms (mrun ex_ops3)) =
  [(["VLAN_VID"; "MY_FIELD"], true); (["IPV4_SRC"], true);
   (["IPV4_SRC"; "VLAN_VID"], true); (["IPV4_SRC"; "IP_DSCP"], true)].
Proof. vm_compute. reflexivity. Qed.
Print Assumptions C09_match_bookkeeping.

(** ** C10 *)
Theorem C10_headerspace_denotation_partial : forall e, hs_expr_ok e ->
  (forall p, hs_accepts (hs_eval e) p <-> hs_denote e p) /\
  (hs_is_empty (hs_eval (HClean e)) = true -> forall p, ~ hs_denote e p).
Proof. exact (fun e H => conj (fun p => hs_eval_denote e p H) (hs_empty_sound e H)). Qed.
Theorem C10_intersect : forall h o p, hs_accepts (hs_intersect h o) p <-> hs_accepts h p /\ hs_accepts o p.
Proof. exact hs_intersect_accepts. Qed.
Theorem C10_diff : forall h o p, hs_accepts (hs_diff h o) p <-> hs_accepts h p /\ ~ accepts o p.
Proof. exact hs_diff_accepts. Qed.
Theorem C10_clean_up : forall h p, hs_ok h -> (hs_accepts (hs_clean_up h) p <-> hs_accepts h p).
Proof. exact hs_clean_up_accepts. Qed.
(** is_empty after clean_up can be False although nothing is left: everything minus its two
    halves. *)
Theorem C10_is_empty_complete_refuted : exists e, hs_expr_ok e /\
  (forall p, ~ hs_denote e p) /\ hs_is_empty (hs_eval (HClean e)) = false.
Proof. exact two_halves_refuted. Qed.
Example C10_ex : hs_is_empty (hs_eval (HClean (HDiff (HDiff (HAdd HEmpty half0) half1) WC_FULLWC))) = true /\
  hs_is_empty (hs_eval (HClean (HDiff (HAdd HEmpty half0) half1))) = false.
Proof. vm_compute. auto. Qed.
Print Assumptions C10_headerspace_denotation_partial.
Print Assumptions C10_clean_up.
Print Assumptions C10_is_empty_complete_refuted.

(** ** C58 *)
Theorem C58_field_ids : forall names, let '(r, ids) := lookups registry_init names in
  List.length ids = List.length names /\
  (forall n n' i i', In (n, i) (combine names ids) -> In (n', i') (combine names ids) -> (i = i' <-> n = n')) /\
  map (fun e => fst (snd e)) r = map Z.of_nat (seq 0 (List.length r)).
Proof. exact lookups_ids. Qed.
Example C58_ex : snd (lookups registry_init ["IN_PORT"; "FOO"; "ETH_TYPE"; "BAR"; "FOO"; "IN_PORT"]) =
  let n := Z.of_nat (List.length registry_init) in [0; n; hd 0 (snd (lookups registry_init ["ETH_TYPE"])); n + 1; n; 0].
Proof. vm_compute. reflexivity. Qed.
Print Assumptions C58_field_ids.
