(** utf8.h properties: C35 - C38, C40 (utf8 functions), C79. *)
From Verif Require Import Base Utf8_Tab Utf8_Model Utf8_Spec Utf8_Proofs Utf8_Proofs2 Utf8_Proofs3 Utf8_Proofs4 Utf8_Proofs5 Utf8_Proofs6.

(** C35.  utf8_encode writes the standard encoding, and decoding it anywhere, whatever
    follows, gives the value back and consumes exactly the bytes written. *)
Theorem C35_encode_is_utf8 c : scalar c -> encode c = enc c.
Proof. exact (encode_ok c). Qed.
Theorem C35_encode_rejects_non_scalars c : 0 <= c -> ~ scalar c -> encode c = [].
Proof. exact (encode_other c). Qed.
Theorem C35_round_trip m s c l cp : scalar c -> Forall is_byte l -> holds_at m s (encode c ++ l) ->
  decode_codepoint m (0, cp) s (s + zlen (encode c ++ l)) = Ok ((0, c), zlen (encode c)).
Proof. intros Hc HB. rewrite (encode_ok c Hc). intros HA. exact (dcp_enc m s c l cp HA Hc HB). Qed.
Theorem C35_peek m s c l : scalar c -> holds_at m s (encode c ++ l) -> peek m s = Ok c /\ chr_size m s = Ok (zlen (encode c)).
Proof. intros Hc. rewrite (encode_ok c Hc). intros HA. split; [exact (peek_loop_enc m c l s Hc HA)|exact (chr_size_ok m c l s Hc HA)]. Qed.
Theorem C35_peek_ill_formed m s l : zstring m s l -> Forall is_byte l ->
  (forall c r, scalar c -> l ++ [0] <> encode c ++ r) -> peek m s = Ok 0xFFFD.
Proof. intros HZ HB HN. apply (peek_bad m s l HZ HB). intros c r Hc. rewrite <- (encode_ok c Hc). exact (HN c r Hc). Qed.
Theorem C35_prefix_free c c' r r' : scalar c -> scalar c' -> encode c ++ r = encode c' ++ r' -> c = c' /\ r = r'.
Proof. intros H H'. rewrite !encode_ok by auto. exact (enc_prefix_eq c c' r r' H H'). Qed.
Example round_trip_euro : scalar 0x20AC /\ encode 0x20AC = [0xE2; 0x82; 0xAC] /\ decode_codepoint [1; 0xE2; 0x82; 0xAC; 7] (0, 0) 1 5 = Ok ((0, 0x20AC), 3).
Proof. split; [left; lia|]. split; reflexivity. Qed.
Example peek_ill_formed_met : peek [0xE2; 0x82; 0] 0 = Ok 0xFFFD /\ zstring [0xE2; 0x82; 0] 0 [0xE2; 0x82] /\
  forall c r, scalar c -> [0xE2; 0x82] ++ [0] <> encode c ++ r.
Proof.
  split; [reflexivity|]. split; [split; [cbn; intuition lia|exists [], []; auto]|]. intros c r Hc E. rewrite encode_ok in E by auto.
  unfold enc in E. revert E. unfold scalar in Hc. cases; intros E; pose proof (f_equal (fun l => nth 0 l 0) E) as E0; pose proof (f_equal (fun l => nth 2 l 0) E) as E2; cbn [nth app] in E0, E2; Z.to_euclidean_division_equations; lia.
Qed.
Example surrogate_not_scalar : ~ scalar 0xD800 /\ encode 0xD800 = [].
Proof. split; [intros [H|H]; lia|reflexivity]. Qed.

(** C36.  Validation accepts exactly the well-formed strings. *)
Theorem C36_valid m s l : zstring m s l -> Forall is_byte l -> exists v, valid m s = Ok v /\ (v = true <-> well_formed l).
Proof. exact (valid_ok m s l). Qed.
Theorem C36_valid_n_no_zero m s l : holds_at m s l -> ~ In 0 l -> Forall is_byte l ->
  exists v, valid_n m s (zlen l) = Ok v /\ (v = true <-> well_formed l).
Proof. exact (valid_n_ok m s l). Qed.
(** With a zero byte in the view only the bytes before it are looked at. *)
Theorem C36_valid_n_zero m s l n : zstring m s l -> zlen l < n -> Forall is_byte l ->
  exists v, valid_n m s n = Ok v /\ (v = true <-> well_formed l).
Proof. exact (valid_n_zero m s l n). Qed.
Theorem C36_valid_n_refuted :
  ~ (forall m s l, holds_at m s l -> Forall is_byte l -> exists v, valid_n m s (zlen l) = Ok v /\ (v = true <-> well_formed l)).
Proof.
  intros H. assert (HB : Forall is_byte [0x61; 0; 0xFF]) by (repeat constructor; lia).
  destruct (H [0x61; 0; 0xFF] 0 [0x61; 0; 0xFF]) as (v & E & HV); auto; [exists [], []; split; reflexivity|].
  vm_compute in E. injection E as <-. pose proof (proj1 HV eq_refl) as E2. apply wf_iff in E2; auto. discriminate E2.
Qed.
Example valid_case : zstring [0x41; 0xC3; 0xA9; 0] 0 [0x41; 0xC3; 0xA9] /\ valid [0x41; 0xC3; 0xA9; 0] 0 = Ok true /\ valid [0xC0; 0x80; 0] 0 = Ok false /\ valid [0xED; 0xA0; 0x80; 0] 0 = Ok false.
Proof. split; [split; [cbn; lia|exists [], []; split; reflexivity]|]. repeat split. Qed.

(** C37.  The memory ends where the view ends: nothing at or beyond [end] is read. *)
Theorem C37_decode_progress_in_bounds pre l cp : l <> [] -> Forall is_byte l ->
  let m := pre ++ l in
  exists c k, decode_codepoint m (0, cp) (zlen pre) (zlen m) = Ok ((0, c), k) /\ 1 <= k <= zlen l /\
    (scalar c /\ (exists r, l = enc c ++ r) /\ k = zlen (enc c) \/
     c = 0xFFFD /\ (forall c' r, scalar c' -> l <> enc c' ++ r) /\
     forall i b, 0 < i < k -> aget l i = Ok b -> 0x80 <= b < 0xC0).
Proof. intros Hn HB m. unfold m. rewrite zlen_app. apply (dcp_any (pre ++ l) (zlen pre) l cp); auto. exists pre, []. rewrite app_nil_r. split; reflexivity. Qed.
Theorem C37_decode_all_any pre l cp : Forall is_byte l ->
  exists cs, decode_all (S (length l)) (pre ++ l) (0, cp) (zlen pre) (zlen (pre ++ l)) = Ok cs /\ decodes l cs.
Proof.
  intros HB. rewrite zlen_app. apply (decode_all_ok (pre ++ l) (zlen pre + zlen l) (S (length l)) l cp (zlen pre)); auto. exists pre, []. rewrite app_nil_r. split; reflexivity.
Qed.
Theorem C37_decode_all_well_formed pre cs cp : Forall scalar cs ->
  decode_all (S (length (enc_all cs))) (pre ++ enc_all cs) (0, cp) (zlen pre) (zlen (pre ++ enc_all cs)) = Ok cs.
Proof.
  intros H. destruct (C37_decode_all_any pre (enc_all cs) cp (wf_bytes cs H)) as (ds & -> & D). now rewrite (decodes_wf cs H ds D).
Qed.
Example decode_all_case : decode_all 9 [0x61; 0xE2; 0x82; 0x62; 0xFF; 0xC3; 0xA9; 0xF0] (0, 0) 0 8 = Ok [0x61; 0xFFFD; 0x62; 0xFFFD; 0xE9; 0xFFFD].
Proof. reflexivity. Qed.

(** C38.  Counting and addressing of code points in zero-terminated well-formed strings. *)
Theorem C38_count m s cs : Forall scalar cs -> zstring m s (enc_all cs) -> count m s = Ok (zlen cs).
Proof. exact (count_ok m s cs). Qed.
(** utf8_at and utf8_offset with k >= 0: the start of the k-th code point; the terminator for k past the end. *)
Theorem C38_at m s cs k : Forall scalar cs -> zstring m s (enc_all cs) ->
  u8at m s (Z.of_nat k) = Ok (s + cp_offset cs k) /\ offset m s (Z.of_nat k) = Ok (s + cp_offset cs k).
Proof. exact (u8at_ok m s cs k). Qed.
Theorem C38_at_past_end m s cs k : Forall scalar cs -> zstring m s (enc_all cs) -> (length cs <= k)%nat ->
  u8at m s (Z.of_nat k) = Ok (s + zlen (enc_all cs)).
Proof. intros H1 H2 H3. rewrite <- (cp_offset_all cs k H3). exact (proj1 (u8at_ok m s cs k H1 H2)). Qed.
Theorem C38_peek_at m s cs k c : Forall scalar cs -> zstring m s (enc_all cs) -> nth_error cs k = Some c -> peek_at m s (Z.of_nat k) = Ok c.
Proof. exact (peek_at_ok m s cs k c). Qed.
Theorem C38_offset_back m s cs j k : Forall scalar cs -> zstring m s (enc_all cs) -> (k <= j < length cs)%nat -> (0 < k)%nat ->
  offset m (s + cp_offset cs j) (- Z.of_nat k) = Ok (s + cp_offset cs (j - k)).
Proof. exact (offset_back m s cs j k). Qed.
(** From the terminator utf8_offset does not move back at all. *)
Theorem C38_offset_back_from_end_refuted : ~ (forall m s cs k, Forall scalar cs -> zstring m s (enc_all cs) -> (0 < k <= length cs)%nat ->
  offset m (s + zlen (enc_all cs)) (- Z.of_nat k) = Ok (s + cp_offset cs (length cs - k))).
Proof.
  intros H. specialize (H [0x61; 0x62; 0] 0 [0x61; 0x62] 1%nat). cbn in H. discriminate H; [|split; [cbn; lia|exists [], []; split; reflexivity]|lia].
  repeat constructor; unfold scalar; lia.
Qed.
(** A view: counted right when the byte after it may be read and is no continuation byte. *)
Theorem C38_count_n_partial m s cs y : Forall scalar cs -> ~ In 0 (enc_all cs) -> holds_at m s (enc_all cs ++ [y]) -> is_cont y = false ->
  count_n m s (zlen (enc_all cs)) = Ok (zlen cs).
Proof. exact (count_n_ok m s cs y). Qed.
Theorem C38_count_n_reads_past_view_refuted : ~ (forall m s cs, Forall scalar cs -> holds_at m s (enc_all cs) -> exists n, count_n m s (zlen (enc_all cs)) = Ok n).
Proof.
  intros H. destruct (H [0x61] 0 [0x61]) as (n & E); [repeat constructor; unfold scalar; lia|exists [], []; split; reflexivity|]. discriminate E.
Qed.
Example count_case : Forall scalar [0x61; 0xE9; 0x20AC; 0x1F600] /\ zstring [0x61; 0xC3; 0xA9; 0xE2; 0x82; 0xAC; 0xF0; 0x9F; 0x98; 0x80; 0] 0 (enc_all [0x61; 0xE9; 0x20AC; 0x1F600]) /\
  count [0x61; 0xC3; 0xA9; 0xE2; 0x82; 0xAC; 0xF0; 0x9F; 0x98; 0x80; 0] 0 = Ok 4 /\ u8at [0x61; 0xC3; 0xA9; 0xE2; 0x82; 0xAC; 0xF0; 0x9F; 0x98; 0x80; 0] 0 3 = Ok 6.
Proof. split; [repeat constructor; unfold scalar; lia|]. split; [split; [cbn; lia|exists [], []; split; reflexivity]|]. split; reflexivity. Qed.

(** C40 (utf8_icmp).  For zero-terminated strings of any bytes: zero exactly when the
    case-folded code points agree; and, where char is unsigned, the sign is their
    lexicographic order. *)
Theorem C40_icmp_zero schar m1 p1 cs1 m2 p2 cs2 : Forall scalar cs1 -> Forall scalar cs2 -> zstring m1 p1 (enc_all cs1) -> zstring m2 p2 (enc_all cs2) ->
  zlen m1 < 2 ^ 63 - 1 -> zlen m2 < 2 ^ 63 - 1 ->
  exists r, icmp schar m1 p1 m2 p2 = Ok r /\ (r = 0 <-> map casefold cs1 = map casefold cs2).
Proof.
  intros S1 S2 Z1 Z2 N1 N2. destruct (icmp_ok schar m1 p1 _ m2 p2 _ Z1 Z2 (wf_bytes _ S1) (wf_bytes _ S2) N1 N2) as (r & ds1 & ds2 & E & D1 & D2 & R & _).
  apply (decodes_wf _ S1) in D1. apply (decodes_wf _ S2) in D2. subst. eauto.
Qed.
Theorem C40_icmp_any_bytes schar m1 p1 l1 m2 p2 l2 : zstring m1 p1 l1 -> zstring m2 p2 l2 -> Forall is_byte l1 -> Forall is_byte l2 -> zlen m1 < 2 ^ 63 - 1 -> zlen m2 < 2 ^ 63 - 1 ->
  exists r ds1 ds2, icmp schar m1 p1 m2 p2 = Ok r /\ decodes l1 ds1 /\ decodes l2 ds2 /\ (r = 0 <-> map casefold ds1 = map casefold ds2) /\
    (schar = false -> (r ?= 0) = lex (map casefold ds1) (map casefold ds2)).
Proof. exact (icmp_ok schar m1 p1 l1 m2 p2 l2). Qed.
Theorem C40_icmp_order_unsigned_char m1 p1 cs1 m2 p2 cs2 : Forall scalar cs1 -> Forall scalar cs2 -> zstring m1 p1 (enc_all cs1) -> zstring m2 p2 (enc_all cs2) ->
  zlen m1 < 2 ^ 63 - 1 -> zlen m2 < 2 ^ 63 - 1 ->
  exists r, icmp false m1 p1 m2 p2 = Ok r /\ (r ?= 0) = lex (map casefold cs1) (map casefold cs2).
Proof.
  intros S1 S2 Z1 Z2 N1 N2. destruct (icmp_ok false m1 p1 _ m2 p2 _ Z1 Z2 (wf_bytes _ S1) (wf_bytes _ S2) N1 N2) as (r & ds1 & ds2 & E & D1 & D2 & _ & R).
  apply (decodes_wf _ S1) in D1. apply (decodes_wf _ S2) in D2. subst. eauto.
Qed.
Theorem C40_lex_is_an_order a b : lex b a = CompOpp (lex a b) /\ (lex a b = Eq <-> a = b).
Proof. split; [exact (lex_sym a b)|exact (lex_eq a b)]. Qed.
(** Where char is signed, "aé" and "a" are each less than the other. *)
Theorem C40_icmp_antisymmetric_refuted : ~ (forall m1 l1 m2 l2 r1 r2, zstring m1 0 l1 -> zstring m2 0 l2 ->
  icmp true m1 0 m2 0 = Ok r1 -> icmp true m2 0 m1 0 = Ok r2 -> (0 ?= r1) = (r2 ?= 0)).
Proof.
  intros H. specialize (H [0x61; 0xC3; 0xA9; 0] [0x61; 0xC3; 0xA9] [0x61; 0] [0x61] (-61) (-233)). discriminate H;
  [split; [cbn; lia|exists [], []; split; reflexivity]|split; [cbn; lia|exists [], []; split; reflexivity]|reflexivity|reflexivity].
Qed.
(** utf8_icompare on views: right when folding keeps the number of bytes of each code point
    (all ASCII strings, for instance), and the second view has no zero byte. *)
Theorem C40_icompare_partial schar m1 p1 cs1 m2 p2 cs2 : holds_at m1 p1 (enc_all cs1) -> holds_at m2 p2 (enc_all cs2) ->
  zlen (enc_all cs1) < 2 ^ 31 -> zlen (enc_all cs2) < 2 ^ 31 -> Forall scalar cs1 -> Forall scalar cs2 -> ~ In 0 cs2 -> keeps cs1 -> keeps cs2 ->
  exists r, icompare schar m1 p1 (zlen (enc_all cs1)) m2 p2 (zlen (enc_all cs2)) = Ok r /\ (r ?= 0) = lex (map casefold cs1) (map casefold cs2).
Proof. exact (icompare_view schar m1 p1 cs1 m2 p2 cs2). Qed.
Theorem C40_ascii_keeps cs : Forall (fun c => 0 <= c < 128) cs -> keeps cs.
Proof. exact (keeps_ascii cs). Qed.
(** In general it is not: the Kelvin sign (3 bytes) equals "kxy" and differs from "k". *)
Theorem C40_icompare_refuted :
  ~ (forall schar m1 p1 cs1 m2 p2 cs2 r, holds_at m1 p1 (enc_all cs1) -> holds_at m2 p2 (enc_all cs2) -> Forall scalar cs1 -> Forall scalar cs2 -> ~ In 0 cs2 ->
     icompare schar m1 p1 (zlen (enc_all cs1)) m2 p2 (zlen (enc_all cs2)) = Ok r -> (r = 0 -> map casefold cs1 = map casefold cs2)) /\
  ~ (forall schar m1 p1 cs1 m2 p2 cs2 r, holds_at m1 p1 (enc_all cs1) -> holds_at m2 p2 (enc_all cs2) -> Forall scalar cs1 -> Forall scalar cs2 -> ~ In 0 cs2 ->
     icompare schar m1 p1 (zlen (enc_all cs1)) m2 p2 (zlen (enc_all cs2)) = Ok r -> (map casefold cs1 = map casefold cs2 -> r = 0)).
Proof.
  split; intros H.
  - specialize (H true [0x6B; 0x78; 0x79] 0 [0x6B; 0x78; 0x79] [0xE2; 0x84; 0xAA] 0 [0x212A] 0).
    assert (E : map casefold [0x6B; 0x78; 0x79] = map casefold [0x212A]); [|vm_compute in E; discriminate E].
    apply H; try reflexivity; try (exists [], []; split; reflexivity); try (repeat constructor; unfold scalar; lia). cbn; lia.
  - specialize (H true [0x6B] 0 [0x6B] [0xE2; 0x84; 0xAA] 0 [0x212A] (-2)).
    assert (E : -2 = 0); [|discriminate E].
    apply H; [exists [], []; split; reflexivity|exists [], []; split; reflexivity|repeat constructor; unfold scalar; lia|repeat constructor; unfold scalar; lia|cbn; lia
      |vm_compute; reflexivity|vm_compute; reflexivity].
Qed.

(** C79.  The case maps send scalar values to scalar values, are idempotent, agree with
    ASCII, never produce 0 from another value and grow no encoding beyond 3/2. *)
Theorem C79_casefold c : scalar c -> scalar (casefold c) /\ 2 * zlen (enc (casefold c)) <= 3 * zlen (enc c) /\ casefold (casefold c) = casefold c /\ (0 < c -> 0 < casefold c).
Proof. exact (casefold_good c). Qed.
Theorem C79_tolower c : scalar c -> scalar (tolower c) /\ 2 * zlen (enc (tolower c)) <= 3 * zlen (enc c) /\ tolower (tolower c) = tolower c /\ (0 < c -> 0 < tolower c).
Proof. exact (tolower_good c). Qed.
Theorem C79_toupper c : scalar c -> scalar (toupper c) /\ 2 * zlen (enc (toupper c)) <= 3 * zlen (enc c) /\ toupper (toupper c) = toupper c /\ (0 < c -> 0 < toupper c).
Proof. exact (toupper_good c). Qed.
Theorem C79_ascii c : 0 <= c < 128 -> tolower c = (if (65 <=? c) && (c <=? 90) then c + 32 else c) /\ casefold c = tolower c /\
  toupper c = (if (97 <=? c) && (c <=? 122) then c - 32 else c).
Proof. exact (ascii_lower c). Qed.
Example case_growth : toupper 0x23F = 0x2C7E /\ zlen (enc 0x23F) = 2 /\ zlen (enc 0x2C7E) = 3 /\ tolower 0x2C7E = 0x23F.
Proof. vm_compute. auto. Qed.
Print Assumptions C35_encode_is_utf8.
Print Assumptions C35_encode_rejects_non_scalars.
Print Assumptions C35_round_trip.
Print Assumptions C35_peek.
Print Assumptions C35_peek_ill_formed.
Print Assumptions C35_prefix_free.
Print Assumptions C36_valid.
Print Assumptions C36_valid_n_no_zero.
Print Assumptions C36_valid_n_zero.
Print Assumptions C36_valid_n_refuted.
Print Assumptions C37_decode_progress_in_bounds.
Print Assumptions C37_decode_all_any.
Print Assumptions C37_decode_all_well_formed.
Print Assumptions C38_count.
Print Assumptions C38_at.
Print Assumptions C38_at_past_end.
Print Assumptions C38_peek_at.
Print Assumptions C38_offset_back.
Print Assumptions C38_offset_back_from_end_refuted.
Print Assumptions C38_count_n_partial.
Print Assumptions C38_count_n_reads_past_view_refuted.
Print Assumptions C40_icmp_zero.
Print Assumptions C40_icmp_any_bytes.
Print Assumptions C40_icmp_order_unsigned_char.
Print Assumptions C40_lex_is_an_order.
Print Assumptions C40_icmp_antisymmetric_refuted.
Print Assumptions C40_icompare_partial.
Print Assumptions C40_ascii_keeps.
Print Assumptions C40_icompare_refuted.
Print Assumptions C79_casefold.
Print Assumptions C79_tolower.
Print Assumptions C79_toupper.
Print Assumptions C79_ascii.
