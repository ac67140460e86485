(** cstr: C28, C29, C30 (cstr), C31, C32 (join), C33 (cstr), C38 (cstr), C39, C68, C78. *)
From Verif Require Import Base Slots Utf8_Model Utf8_Spec Utf8_Proofs4 View_Model View_Spec View_Proofs Cstr_Model Cstr_Spec Cstr_Proofs Cstr_Proofs2 Cstr_Proofs3.

(** C28.  [repr s l]: the string object [s] holds the bytes [l]. *)
Theorem C28_history s l h l' : repr s l -> Forall is_byte l -> zlen l <= max_len -> Forall op_bytes h -> edits l h = Some l' ->
  exists s', run s h = Ok s' /\ repr s' l'.
Proof. intros R HB HL HO HE. destruct (run_ok h s l l' R HB HO HL HE) as (s' & E & R' & _). eauto. Qed.
Theorem C28_init : repr init [].
Proof. exact init_ok. Qed.
Theorem C28_from b : zlen b < 2 ^ 63 - 1 -> exists s, from_n b = Ok s /\ repr s b.
Proof. exact (from_n_ok b). Qed.
Theorem C28_with_size n v : 0 <= n < 2 ^ 63 - 1 -> exists s, with_size n v = Ok s /\ repr s (repeat v (Z.to_nat n)).
Proof. exact (with_size_ok n v). Qed.
Theorem C28_with_capacity cap : 0 <= cap < 2 ^ 63 - 1 -> exists s, with_capacity cap = Ok s /\ repr s [] /\ cap <= scap s.
Proof. exact (with_capacity_ok cap). Qed.
Theorem C28_clone s l : repr s l -> exists s', clone s = Ok s' /\ repr s' l.
Proof. exact (clone_ok s l). Qed.
(** What [repr] says to a reader of the string: size, bytes, terminator, capacity. *)
Theorem C28_observed s l : repr s l -> ssize s = Ok (zlen l) /\ rds (sdata s) 0 (zlen l) = Ok l /\ rd (sdata s) (zlen l) = Ok 0 /\ zlen l <= scap s /\ scap s + 1 <= zlen (sdata s).
Proof.
  intros R. pose proof (repr_read s l R) as [E1 E2]. pose proof R as (W & _ & E & L). pose proof (wf_cap s W). repeat (split; [assumption|]). lia.
Qed.
Theorem C28_reserve s l n : repr s l -> n < 2 ^ 63 - 1 -> exists s' mv, reserve s n = Ok (s', mv) /\ repr s' l /\ n <= scap s' /\ (n <= scap s -> s' = s).
Proof. intros R Hn. destruct (reserve_ok s l n R Hn) as (s' & mv & E & R' & L & _ & M1 & M2). exists s', mv. repeat (split; [assumption|]). auto. Qed.
Theorem C28_shrink s l : repr s l -> exists s', shrink_to_fit s = Ok s' /\ repr s' l /\ scap s' = Z.max 22 (zlen l).
Proof. exact (shrink_ok s l). Qed.
Theorem C28_push s l m p c r : repr s l -> scalar c -> holds_at m p (enc c ++ r) -> zlen l <= 2 ^ 60 -> exists s', push s m p = Ok s' /\ repr s' (l ++ enc c).
Proof. exact (push_ok s l m p c r). Qed.
Theorem C28_pop_char s l c : repr s (l ++ enc c) -> Forall is_byte l -> scalar c -> exists s', pop s = Ok s' /\ repr s' l.
Proof. exact (pop_char s l c). Qed.
Theorem C28_append_uninit s l n : repr s l -> 0 <= n -> zlen l + n <= 2 ^ 61 ->
  exists s', append_uninit s n = Ok s' /\ ssize s' = Ok (zlen l + n) /\ cells (sdata s') 0 l /\
    forall b, zlen b = n -> exists d, wrs (sdata s') (zlen l) b = Ok d /\ repr (wdata s' d) (l ++ b).
Proof. exact (append_uninit_ok s l n). Qed.
(** The last byte of the 24 tells the two layouts apart: a size up to 22 has bit 7 clear, the
    capacity word of a long string has it set and gives back the capacity. *)
Theorem C28_flag_little_endian cap : 0 <= cap < 2 ^ 63 -> 0 <= ncap_le cap < 2 ^ 64 /\ lflag (ncap_le cap / 2 ^ 56) = true /\ cap_le (ncap_le cap) = cap.
Proof. exact (le_layout cap). Qed.
Theorem C28_flag_big_endian cap : 0 <= cap < 2 ^ 63 -> 0 <= ncap_be cap < 2 ^ 64 /\ lflag (ncap_be cap mod 256) = true /\ cap_be (ncap_be cap) = cap.
Proof. exact (be_layout cap). Qed.
Theorem C28_flag_short n : 0 <= n <= 22 -> lflag n = false.
Proof. intros H. rewrite lflag_high by lia. destruct (Z.leb_spec 128 n); [lia|reflexivity]. Qed.
(** [cstr_pop] of an empty string reads before the buffer. *)
Theorem C28_pop_empty_refuted : ~ (forall s l, repr s l -> exists s', pop s = Ok s').
Proof. intros H. destruct (H init [] init_ok) as (s' & E). vm_compute in E. discriminate. Qed.
Definition ten : list Z := [104; 101; 108; 108; 111; 32; 195; 169; 33; 46].
Definition trip : list op := [OAppend ten; OAppendSelf 0 10; OAppend [65; 66]; OInsert 3 [67]; OReplaceAt 0 2 ten; OErase 4 20; OShrink; OReserve 40; OResize 30 120; OPop; OAppendFmt [49]; OShrink; OClear; OAppend ten; OErase 8 100; OPop].
Example C28_history_met : Forall op_bytes trip /\ edits [] trip = Some [104; 101; 108; 108; 111; 32] /\
  exists s, run init (firstn 4 trip) = Ok s /\ scap s = 34 /\ ssize s = Ok 23.
Proof.
  split; [unfold trip, ten; repeat constructor; unfold is_byte; lia|]. split; [vm_compute; reflexivity|].
  destruct (run init (firstn 4 trip)) as [s|e] eqn:E; [|vm_compute in E; discriminate]. exists s. split; [reflexivity|]. vm_compute in E. injection E as <-. vm_compute. auto.
Qed.
Example C28_char_met : scalar 0x20AC /\ holds_at [7; 0xE2; 0x82; 0xAC; 9] 1 (enc 0x20AC ++ [9]).
Proof. split; [left; lia|]. exists [7], []. split; reflexivity. Qed.

(** C29. *)
Theorem C29_append_self s l pos len : repr s l -> 0 <= pos -> 0 <= len -> pos + len <= zlen l -> zlen l + len <= 2 ^ 61 ->
  exists s', append_n s (Self pos len) = Ok s' /\ repr s' (l ++ sub l pos len).
Proof. intros R H1 H2 H3 H4. apply append_ok; [exact R|cbn; auto|rewrite sub_len; lia]. Qed.
(** The new terminator is written before the bytes are moved: right only when it is not in the
    part, which then starts at 0 or after its own length. *)
Theorem C29_assign_self_partial s l off n : repr s l -> 0 <= off -> 0 <= n -> off + n <= zlen l -> off = 0 \/ n < off -> exists s', assign_n s (Self off n) = Ok s' /\ repr s' (sub l off n).
Proof. exact (assign_self s l off n). Qed.
Theorem C29_assign_self_refuted : ~ (forall s l off n, repr s l -> 0 <= off -> 0 <= n -> off + n <= zlen l -> exists s', assign_n s (Self off n) = Ok s' /\ repr s' (sub l off n)).
Proof.
  intros H. destruct (from_n_ok [97; 98; 99; 100; 101; 102]) as (s & E & R); [vm_compute; reflexivity|]. destruct (H s _ 1 3 R) as (s' & E' & R'); try (vm_compute; discriminate).
  vm_compute in E. injection E as <-. vm_compute in E'. injection E' as <-. apply repr_read in R' as [E _]. vm_compute in E. discriminate.
Qed.
Example C29_assign_self_met : exists s, from_n ten = Ok s /\ repr s ten /\ 3 < 5 /\ 5 + 3 <= zlen ten.
Proof. destruct (from_n_ok ten) as (s & E & R); [vm_compute; reflexivity|]. exists s. split; [exact E|]. split; [exact R|]. split; [lia|]. vm_compute. discriminate. Qed.

(** C78.  Inserting or replacing by a part of the string itself. *)
Theorem C78_insert_self_partial s l pos off n : repr s l -> 0 <= off -> 0 <= n -> off + n <= pos -> pos <= zlen l -> zlen l + n <= scap s -> zlen l + n <= 2 ^ 61 ->
  exists s', insert s pos (Self off n) = Ok s' /\ repr s' (firstn (Z.to_nat pos) l ++ sub l off n ++ skipn (Z.to_nat pos) l).
Proof. exact (insert_self s l pos off n). Qed.
Theorem C78_insert_self_refuted : ~ (forall s l pos off n, repr s l -> 0 <= off -> 0 <= n -> off + n <= zlen l -> 0 <= pos <= zlen l ->
  exists s', insert s pos (Self off n) = Ok s' /\ repr s' (firstn (Z.to_nat pos) l ++ sub l off n ++ skipn (Z.to_nat pos) l)).
Proof.
  intros H. destruct (from_n_ok [97; 98; 99; 100; 101; 102]) as (s & E & R); [vm_compute; reflexivity|]. destruct (H s _ 1 4 2 R) as (s' & E' & R'); try (vm_compute; discriminate); try (split; vm_compute; discriminate).
  vm_compute in E. injection E as <-. vm_compute in E'. injection E' as <-. apply repr_read in R' as [E _]. vm_compute in E. discriminate.
Qed.
(** When the string has to grow the part is read after it was freed. *)
Theorem C78_insert_self_freed_refuted : exists s l, repr s l /\ insert s 20 (Self 0 10) = Err UseAfterFree.
Proof.
  destruct (from_n_ok (repeat 97 20)) as (s & E & R); [vm_compute; reflexivity|]. exists s, (repeat 97 20). split; [exact R|]. vm_compute in E. injection E as <-. vm_compute. reflexivity.
Qed.
Example C78_insert_self_met : exists s, from_n ten = Ok s /\ repr s ten /\ 2 + 3 <= 6 /\ 6 <= zlen ten /\ zlen ten + 3 <= scap s.
Proof. destruct (from_n_ok ten) as (s & E & R); [vm_compute; reflexivity|]. exists s. vm_compute in E. injection E as <-. split; [reflexivity|]. split; [exact R|]. split; [lia|]. split; vm_compute; discriminate. Qed.

(** C30, C33, C41: a view of a cstr shows its bytes, so that the theorems on views apply. *)
Theorem C33_cstr_view s l : repr s l -> exists m, view_of s = Ok (V m 0 (zlen l)) /\ shows (V m 0 (zlen l)) l /\ holds_at m 0 (l ++ [0]).
Proof. intros R. destruct (view_ok s l R) as (m & E & S & A & _). eauto. Qed.
Theorem C30_cstr_find_at s l pos sm q pat : repr s l -> ~ In 0 l -> 0 <= pos <= zlen l -> zstring sm q pat ->
  exists r, find_at s pos sm q = Ok r /\ first_at (skipn (Z.to_nat pos) l) pat (match r with Some i => Some (i - pos) | None => None end).
Proof. exact (find_at_ok s l pos sm q pat). Qed.
(** From a position beyond the end nothing is found and nothing is read. *)
Theorem C30_cstr_find_beyond s l pos sm q : repr s l -> zlen l < pos -> find_at s pos sm q = Ok None.
Proof. intros R Hp. unfold find_at. destruct (view_ok s l R) as (m & -> & _). cbn [bind size]. destruct (Z.ltb_spec (zlen l) pos); [reflexivity|lia]. Qed.
Theorem C30_cstr_starts_with s l sm q pat : repr s l -> zstring sm q pat -> exists r, starts_with s sm q = Ok r /\ (r = true <-> exists t, l = pat ++ t).
Proof. exact (starts_with_ok s l sm q pat). Qed.
Example C30_cstr_met : exists s, from_n ten = Ok s /\ repr s ten /\ ~ In 0 ten /\ zstring [108; 111; 0] 0 [108; 111].
Proof.
  destruct (from_n_ok ten) as (s & E & R); [vm_compute; reflexivity|]. exists s. split; [exact E|]. split; [exact R|]. split; [unfold ten; cbn; lia|]. split; [cbn; lia|]. exists [], []. split; reflexivity.
Qed.

(** C31. *)
Theorem C31_replace i search repl text sep rep count out : shows i text -> shows search sep -> shows repl rep -> sep <> [] -> 0 <= count ->
  replaced sep rep (Z.to_nat (if count =? 0 then 2 ^ 31 - 1 else count)) text out -> zlen out <= 2 ^ 60 -> exists s, from_replace i search repl count = Ok s /\ repr s out.
Proof. exact (from_replace_ok i search repl text sep rep count out). Qed.
Theorem C31_replaced_is_a_function sep rep n text : sep <> [] -> exists out, replaced sep rep n text out /\ forall out', replaced sep rep n text out' -> out = out'.
Proof. intros H. destruct (replaced_total sep rep n H text) as [out R]. exists out. split; [exact R|]. intros out' R'. exact (replaced_fun _ _ _ _ _ R _ R'). Qed.
(** All occurrences: the parts between them, joined by the replacement. *)
Theorem C31_replace_all_partial i search repl text sep rep ts : shows i text -> shows search sep -> shows repl rep -> sep <> [] -> zlen text < 2 ^ 31 ->
  splits sep text ts -> zlen (join rep ts) <= 2 ^ 60 -> exists s, from_replace i search repl 0 = Ok s /\ repr s (join rep ts).
Proof.
  intros HI HS HR Hn Hl SP HJ. apply (from_replace_ok i search repl text sep rep 0 (join rep ts)); auto; [lia|]. apply replaced_splits; auto.
  pose proof (splits_count sep text ts Hn SP). unfold zlen in Hl. change (0 =? 0) with true. cbv iota. destruct (Nat.eq_dec (length text) (Z.to_nat (2 ^ 31 - 1))) as [E|E]; [rewrite E in H; lia|lia].
Qed.
(** A count of 0 stands for 2^31 - 1, not for all: a text with more occurrences keeps the last. *)
Theorem C31_replace_all_refuted : ~ (forall i search repl text sep rep ts, shows i text -> shows search sep -> shows repl rep -> sep <> [] ->
  splits sep text ts -> zlen (join rep ts) <= 2 ^ 60 -> exists s, from_replace i search repl 0 = Ok s /\ repr s (join rep ts)).
Proof. exact replace_all_refuted. Qed.
Theorem C31_empty_search i search repl text rep count : shows i text -> shows search [] -> shows repl rep -> zlen text <= 2 ^ 60 -> exists s, from_replace i search repl count = Ok s /\ repr s text.
Proof. exact (from_replace_empty i search repl text rep count). Qed.
Example C31_replace_met : replaced [97; 97] [98] 2 [97; 97; 97; 99; 97; 97; 97; 97] [98; 97; 99; 98; 97; 97].
Proof.
  apply (rp_next [97; 97] [98] 1 [] [97; 99; 97; 97; 97; 97] [97; 99; 98; 97; 97]).
  - split; [exists [], [97; 99; 97; 97; 97; 97]; split; reflexivity|]. intros j H. apply occurs_range in H. change (zlen (@nil Z)) with 0. lia.
  - apply (rp_next [97; 97] [98] 0 [97; 99] [97; 97] [97; 97]); [|constructor]. split; [exists [97; 99], [97; 97]; split; reflexivity|].
    intros j (x & y & E & L). destruct x as [|x1 [|x2 x]]; cbn [app] in E; try discriminate E. rewrite !zlen_cons in *. pose proof (zlen_nonneg x). change (zlen (@nil Z)) with 0. lia.
Qed.
Example C31_replace_run : exists s, from_replace (V [97; 97; 97; 99; 97; 97; 97; 97] 0 8) (V [97; 97] 0 2) (V [98] 0 1) 2 = Ok s /\ ssize s = Ok 6.
Proof. eexists. split; [vm_compute; reflexivity|reflexivity]. Qed.

(** C32. *)
Theorem C32_join s l sep arr : repr s l -> zlen l + zlen sep + zlen (join sep arr) <= 2 ^ 61 -> exists s', join_n s sep arr = Ok s' /\
  repr s' (match l, arr with _, [] => l | [], _ => join sep arr | _, _ => l ++ sep ++ join sep arr end).
Proof. exact (join_n_ok s l sep arr). Qed.
Theorem C32_split_join sep text ts : splits sep text ts -> zlen sep + zlen text <= 2 ^ 61 -> exists s, join_n init sep ts = Ok s /\ repr s text.
Proof.
  intros SP HL. pose proof (splits_join _ _ _ SP) as J. destruct (join_n_ok init [] sep ts init_ok) as (s & E & R); [rewrite J; change (zlen (@nil Z)) with 0; lia|]. exists s. split; [exact E|]. rewrite J in R. destruct ts; [inversion SP|exact R].
Qed.
Example C32_join_met : splits [44] [97; 44; 44; 98] [[97]; []; [98]] /\ zlen [44] + zlen [97; 44; 44; 98] <= 2 ^ 61.
Proof.
  split; [|vm_compute; discriminate]. apply (sp_next [44] [97] [44; 98]).
  - split; [exists [97], [44; 98]; split; reflexivity|]. intros j (x & y & E & L). destruct x; cbn [app] in E; [discriminate E|]. rewrite zlen_cons in L. pose proof (zlen_nonneg x). change (zlen [97]) with 1. lia.
  - apply (sp_next [44] [] [98]); [split; [exists [], [98]; split; reflexivity|]; intros j H; apply occurs_range in H; change (zlen (@nil Z)) with 0; lia|].
    apply sp_last. intros j (x & y & E & L). destruct x as [|x1 [|x2 x]]; cbn [app] in E; discriminate E.
Qed.

(** C38 for cstr: positions are code points. *)
Theorem C38_cstr_u8_erase s cs k n : Forall scalar cs -> repr s (enc_all cs) -> ~ In 0 (enc_all cs) -> exists s', u8_erase s (Z.of_nat k) (Z.of_nat n) = Ok s' /\ repr s' (enc_all (firstn k cs ++ skipn (k + n) cs)).
Proof. exact (u8_erase_ok s cs k n). Qed.
Theorem C38_cstr_u8_replace s cs k n b : Forall scalar cs -> repr s (enc_all cs) -> ~ In 0 (enc_all cs) -> zlen (enc_all cs) + zlen b <= 2 ^ 61 ->
  exists s', u8_replace s (Z.of_nat k) (Z.of_nat n) b = Ok s' /\ repr s' (enc_all (firstn k cs) ++ b ++ enc_all (skipn (k + n) cs)).
Proof. exact (u8_replace_ok s cs k n b). Qed.
Theorem C38_cstr_u8_insert s cs k b : Forall scalar cs -> repr s (enc_all cs) -> ~ In 0 (enc_all cs) -> zlen (enc_all cs) + zlen b <= 2 ^ 61 ->
  exists s', u8_insert s (Z.of_nat k) b = Ok s' /\ repr s' (enc_all (firstn k cs) ++ b ++ enc_all (skipn k cs)).
Proof. exact (u8_insert_ok s cs k b). Qed.
Example C38_cstr_met : exists s, from_n ten = Ok s /\ repr s (enc_all [104; 101; 108; 108; 111; 32; 233; 33; 46]) /\ Forall scalar [104; 101; 108; 108; 111; 32; 233; 33; 46] /\ ~ In 0 ten.
Proof.
  destruct (from_n_ok ten) as (s & E & R); [vm_compute; reflexivity|]. exists s. split; [exact E|]. split; [exact R|]. split; [repeat constructor; unfold scalar; lia|unfold ten; cbn; lia].
Qed.

(** C39.  Kinds 0, 1, 2: casefold, tolower, toupper.  Ill-formed bytes are decoded to U+FFFD. *)
Theorem C39_well_formed v cs k : 0 <= k < 3 -> Forall scalar cs -> shows v (enc_all cs) -> zlen (enc_all cs) <= 2 ^ 60 ->
  exists s, tocase_sv v k = Ok s /\ repr s (enc_all (map (case_of k) cs)).
Proof. exact (tocase_wf v cs k). Qed.
Theorem C39_any_bytes_partial v l k : 0 <= k < 3 -> shows v l -> Forall is_byte l -> zlen l <= 2 ^ 60 ->
  exists ds, decodes l ds /\ Forall scalar ds /\ (zlen (enc_all (map (case_of k) ds)) <= Z.max 22 (zlen l * 3 / 2) -> exists s, tocase_sv v k = Ok s /\ repr s (enc_all (map (case_of k) ds))).
Proof. exact (tocase_ok v l k). Qed.
(** Sixteen bytes that start no code point take three bytes each in a buffer for one and a half:
    written past its end. *)
Theorem C39_ill_formed_refuted : ~ (forall v l k, 0 <= k < 3 -> shows v l -> Forall is_byte l -> zlen l <= 2 ^ 60 -> exists s, tocase_sv v k = Ok s).
Proof.
  intros H. destruct (H (V (repeat 255 16) 0 16) (repeat 255 16) 1) as (s & E); [lia| | | |].
  - split; [|reflexivity]. exists [], []. split; reflexivity.
  - apply Forall_forall. intros x Hx. apply repeat_spec in Hx. subst. unfold is_byte. lia.
  - vm_compute. discriminate.
  - vm_compute in E. discriminate.
Qed.
(** Eight of them overwrite the size byte of the short form, which then reads as a long string. *)
Theorem C39_short_ill_formed_refuted : exists v l, shows v l /\ Forall is_byte l /\ zlen l = 8 /\ tocase_sv v 1 = Err Uninit.
Proof.
  exists (V (repeat 255 8) 0 8), (repeat 255 8). split; [split; [exists [], []; split; reflexivity|reflexivity]|]. split; [apply Forall_forall; intros x Hx; apply repeat_spec in Hx; subst; unfold is_byte; lia|]. split; [reflexivity|]. vm_compute. reflexivity.
Qed.
Example C39_met : Forall scalar [0x48; 0xC9; 0x2C65] /\ shows (V [0x48; 0xC3; 0x89; 0xE2; 0xB1; 0xA5] 0 6) (enc_all [0x48; 0xC9; 0x2C65]) /\ enc_all (map (case_of 2) [0x48; 0xC9; 0x2C65]) = [0x48; 0xC3; 0x89; 0xC8; 0xBA].
Proof. split; [repeat constructor; unfold scalar; lia|]. split; [split; [exists [], []; split; reflexivity|reflexivity]|]. vm_compute. reflexivity. Qed.

(** C68. *)
Theorem C68_getdelim s l delim io : repr s l -> zlen io < 2 ^ 60 ->
  (io = [] /\ getdelim s delim io = Ok (s, [], false)) \/
  exists s', (exists line rest, io = line ++ delim :: rest /\ ~ In delim line /\ getdelim s delim io = Ok (s', rest, true) /\ repr s' line) \/
             (io <> [] /\ ~ In delim io /\ getdelim s delim io = Ok (s', [], true) /\ repr s' io).
Proof. exact (getdelim_ok s l delim io). Qed.
Theorem C68_read_lines delim s l io : repr s l -> zlen io < 2 ^ 60 -> exists ls, read_lines (S (length io)) s delim io = Ok ls /\ lines delim io ls.
Proof. intros R HL. apply (read_lines_ok delim _ s l io R HL). lia. Qed.
(** Every byte of the stream is in the lines, with the delimiters between them. *)
Theorem C68_lines_keep_bytes delim io ls : lines delim io ls -> io = concat (map (fun l => l ++ [delim]) ls) \/ io ++ [delim] = concat (map (fun l => l ++ [delim]) ls).
Proof. exact (lines_bytes delim io ls). Qed.
Example C68_met : read_lines 30 init 10 [97; 10; 10; 98; 99; 10; 100] = Ok [[97]; []; [98; 99]; [100]].
Proof. vm_compute. reflexivity. Qed.
Print Assumptions C28_history.
Print Assumptions C28_init.
Print Assumptions C28_from.
Print Assumptions C28_with_size.
Print Assumptions C28_with_capacity.
Print Assumptions C28_clone.
Print Assumptions C28_observed.
Print Assumptions C28_reserve.
Print Assumptions C28_shrink.
Print Assumptions C28_push.
Print Assumptions C28_pop_char.
Print Assumptions C28_append_uninit.
Print Assumptions C28_flag_little_endian.
Print Assumptions C28_flag_big_endian.
Print Assumptions C28_flag_short.
Print Assumptions C28_pop_empty_refuted.
Print Assumptions C29_append_self.
Print Assumptions C29_assign_self_partial.
Print Assumptions C29_assign_self_refuted.
Print Assumptions C78_insert_self_partial.
Print Assumptions C78_insert_self_refuted.
Print Assumptions C78_insert_self_freed_refuted.
Print Assumptions C33_cstr_view.
Print Assumptions C30_cstr_find_at.
Print Assumptions C30_cstr_find_beyond.
Print Assumptions C30_cstr_starts_with.
Print Assumptions C31_replace.
Print Assumptions C31_replaced_is_a_function.
Print Assumptions C31_replace_all_partial.
Print Assumptions C31_replace_all_refuted.
Print Assumptions C31_empty_search.
Print Assumptions C32_join.
Print Assumptions C32_split_join.
Print Assumptions C38_cstr_u8_erase.
Print Assumptions C38_cstr_u8_replace.
Print Assumptions C38_cstr_u8_insert.
Print Assumptions C39_well_formed.
Print Assumptions C39_any_bytes_partial.
Print Assumptions C39_ill_formed_refuted.
Print Assumptions C39_short_ill_formed_refuted.
Print Assumptions C68_getdelim.
Print Assumptions C68_read_lines.
Print Assumptions C68_lines_keep_bytes.
