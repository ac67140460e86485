(** String views and hashing: C03 (characters), C30, C32 - C34, C38 (views), C40 (views), C41, C42. *)
From Verif Require Import Base Utf8_Model Utf8_Spec Utf8_Proofs Utf8_Proofs3 Utf8_Proofs4 Utf8_Proofs5 Utf8_Proofs6 View_Model View_Spec View_Proofs View_Proofs2.

Ltac bytes := exists [], []; split; reflexivity.
Ltac zstr := split; [cbn; lia|bytes].

(** C30.  Memory may end where the strings end: only bytes of the two strings are read. *)
Theorem C30_find_sv a s text pat : shows a text -> shows s pat -> exists r, find_sv a s = Ok r /\ first_at text pat r.
Proof. exact (find_sv_ok a s text pat). Qed.
Theorem C30_find a m p text pat : shows a text -> zstring m p pat -> exists r, find a m p = Ok r /\ first_at text pat r.
Proof. exact (find_ok a m p text pat). Qed.
Theorem C30_contains a m p text pat : shows a text -> zstring m p pat -> exists r, contains a m p = Ok r /\ (r = true <-> exists i, occurs text pat i).
Proof. exact (contains_ok a m p text pat). Qed.
Theorem C30_starts_with a m p text pat : shows a text -> zstring m p pat -> exists v, starts_with a m p = Ok v /\ (v = true <-> exists r, text = pat ++ r).
Proof. exact (starts_ok a m p text pat). Qed.
Theorem C30_ends_with a m p text pat : shows a text -> zstring m p pat -> exists v, ends_with a m p = Ok v /\ (v = true <-> exists r, text = r ++ pat).
Proof. exact (ends_ok a m p text pat). Qed.
(** The first occurrence is determined by the two strings. *)
Theorem C30_first_unique text pat r1 r2 : first_at text pat r1 -> first_at text pat r2 -> r1 = r2.
Proof. exact (first_unique text pat r1 r2). Qed.
(** zsview_find and cstr_find (strstr): right when the text has no zero byte. *)
Theorem C30_z_find_partial m p text sm s pat : zstring m p text -> zstring sm s pat -> exists r, z_find m p sm s = Ok r /\ first_at text pat r.
Proof. exact (strstr_ok m p text sm s pat). Qed.
(** After a zero byte inside a cstr nothing is found: "a\0b" does not contain "b". *)
Theorem C30_z_find_after_zero_refuted :
  ~ (forall m p text sm s pat, holds_at m p (text ++ [0]) -> zstring sm s pat -> exists r, z_find m p sm s = Ok r /\ first_at text pat r).
Proof.
  intros H. destruct (H [97; 0; 98; 0] 0 [97; 0; 98] [98; 0] 0 [98]) as (r & E & F); [bytes|zstr|]. vm_compute in E. injection E as <-.
  apply (F 2). exists [97; 0], []. split; reflexivity.
Qed.
Example find_case : shows (V [97; 97; 98; 97; 97; 98] 0 6) [97; 97; 98; 97; 97; 98] /\ find_sv (V [97; 97; 98; 97; 97; 98] 0 6) (V [97; 98] 0 2) = Ok (Some 1) /\
  find_sv (V [97; 97; 98; 97; 97; 98] 3 3) (V [98; 97] 0 2) = Ok None /\ find_sv (V [97] 0 0) (V [97] 0 0) = Ok (Some 0).
Proof. split; [split; [bytes|reflexivity]|]. repeat split. Qed.

(** C32.  Tokenizing with a non-empty separator. *)
Theorem C32_tokens a sm sep text sp : shows a text -> zstring sm sep sp -> sp <> [] ->
  exists vs ts, tokens a sm sep = Ok vs /\ Forall2 shows vs ts /\ splits sp text ts /\ join sp ts = text /\ (forall t i, In t ts -> ~ occurs t sp i).
Proof.
  intros HS HZ Hn. destruct (tokens_ok a sm sep text sp HS HZ Hn) as (vs & ts & E & F & S). exists vs, ts. split; [exact E|]. split; [exact F|]. split; [exact S|].
  split; [exact (splits_join sp text ts S)|]. intros t i Ht. exact (splits_clean sp text ts Hn S t Ht i).
Qed.
(** [splits] determines the tokens, so their number. *)
Theorem C32_split_unique sep text ts ts' : splits sep text ts -> splits sep text ts' -> ts = ts'.
Proof. exact (splits_fun sep text ts ts'). Qed.
(** An empty separator: the loop never ends (this is why the claim asks for a non-empty one). *)
Theorem C32_empty_separator_loops a m p text : shows a text -> zstring m p [] -> forall fuel, tokens_n fuel a m p 0 = Err OutOfFuel.
Proof.
  intros HS HZ. pose proof HS as [_ EA]. induction fuel as [|fuel IH]; [reflexivity|]. cbn [tokens_n]. rewrite EA. pose proof (zlen_nonneg text). destruct (Z.leb_spec 0 (zlen text)); [|lia].
  unfold token. rewrite (strlen_ok _ _ _ HZ). cbn [bind]. unfold strnstrn. change (zlen []) with 0. cbn [Z.eqb bind snd fst]. rewrite Z.sub_diag. cbn [Z.add]. now rewrite IH.
Qed.
Example tokens_case : tokens (V [44; 97; 44; 44; 98] 0 5) [44; 0] 0 = Ok [V [44; 97; 44; 44; 98] 0 0; V [44; 97; 44; 44; 98] 1 1; V [44; 97; 44; 44; 98] 3 0; V [44; 97; 44; 44; 98] 4 1] /\
  tokens (V [] 0 0) [44; 0] 0 = Ok [V [] 0 0] /\ zstring [44; 0] 0 [44] /\ shows (V [44; 97; 44; 44; 98] 0 5) [44; 97; 44; 44; 98].
Proof. split; [reflexivity|]. split; [reflexivity|]. split; [zstr|split; [bytes|reflexivity]]. Qed.

(** C33.  [sub l pos len] is the [len] bytes from [pos], or as many as there are.  In [subview]
    the sum of position and length must fit isize (see the last theorem). *)
Theorem C33_subview a l pos len : shows a l -> zlen l <= imax -> 0 <= pos <= zlen l -> 0 <= len -> pos + len <= imax ->
  exists v, subview a pos len = Ok v /\ shows v (sub l pos len).
Proof. exact (subview_ok a l pos len). Qed.
Theorem C33_subview_rejects a l pos len : shows a l -> zlen l <= imax -> - 2 ^ 63 <= pos <= imax -> (pos < 0 \/ zlen l < pos \/ len < 0) -> subview a pos len = Err AssertFail.
Proof. exact (subview_bad a l pos len). Qed.
Theorem C33_slice a l p1 p2 : shows a l -> zlen l <= imax -> 0 <= p1 <= zlen l -> p1 <= p2 <= imax -> exists v, slice a p1 p2 = Ok v /\ shows v (sub l p1 (p2 - p1)).
Proof. exact (slice_ok a l p1 p2). Qed.
(** A negative position counts from the end. *)
Theorem C33_subview_pro a l pos len : shows a l -> zlen l + len <= imax -> 0 <= len ->
  exists v, subview_pro a pos len = Ok v /\ shows v (sub l (if pos <? 0 then Z.max 0 (zlen l + pos) else Z.min pos (zlen l)) len).
Proof. exact (subview_pro_ok a l pos len). Qed.
(** zsview_tail and cstr_tail clamp the length, zsview_from_pos the position. *)
Theorem C33_z_tail a l len : shows a l -> 0 <= len -> exists v, z_tail a len = Ok v /\ shows v (sub l (zlen l - Z.min len (zlen l)) len).
Proof. exact (z_tail_ok a l len). Qed.
Theorem C33_z_from_pos a l pos : shows a l -> 0 <= pos -> shows (z_from_pos a pos) (skipn (Z.to_nat pos) l).
Proof. exact (from_pos_ok a l pos). Qed.
(** csview_tail does not clamp: right for lengths up to the size. *)
Theorem C33_tail_partial a l len : shows a l -> zlen l <= imax -> 0 <= len <= zlen l -> exists v, tail a len = Ok v /\ shows v (sub l (zlen l - len) len).
Proof. exact (tail_ok a l len). Qed.
Theorem C33_tail_clamps_refuted : ~ (forall a l len, shows a l -> 0 <= len -> exists v, tail a len = Ok v /\ shows v (sub l (zlen l - Z.min len (zlen l)) len)).
Proof.
  intros H. destruct (H (V [97] 0 1) [97] 2) as (v & E & _); [split; [bytes|reflexivity]|lia|]. discriminate E.
Qed.
(** subview(sv, 1, ISIZE_MAX) overflows. *)
Theorem C33_subview_any_length_refuted : ~ (forall a l pos len, shows a l -> 0 <= pos <= zlen l -> 0 <= len <= imax -> exists v, subview a pos len = Ok v).
Proof.
  intros H. destruct (H (V [97] 0 1) [97] 1 imax) as (v & E); [split; [bytes|reflexivity]|unfold zlen; cbn; lia|unfold imax; lia|]. vm_compute in E. discriminate E.
Qed.
Example subview_case : subview (V [97; 98; 99; 100] 0 4) 1 2 = Ok (V [97; 98; 99; 100] 1 2) /\ sub [97; 98; 99; 100] 1 2 = [98; 99] /\
  subview_pro (V [97; 98; 99; 100] 0 4) (-3) 2 = Ok (V [97; 98; 99; 100] 1 2) /\ subview (V [97; 98; 99; 100] 0 4) 3 9 = Ok (V [97; 98; 99; 100] 3 1).
Proof. repeat split. Qed.

(** C34.  Where char is unsigned, or all bytes are ASCII, trimming removes exactly the blanks. *)
Theorem C34_trim_start_partial schar a l : shows a l -> Forall is_byte l -> (schar = true -> Forall (fun b => b < 128) l) ->
  exists v r, trim_start schar a = Ok v /\ shows v r /\ trimmed_start l r.
Proof. exact (trim_start_ok schar a l). Qed.
Theorem C34_trim_end_partial schar a l : shows a l -> Forall is_byte l -> (schar = true -> Forall (fun b => b < 128) l) ->
  exists v r, trim_end schar a = Ok v /\ shows v r /\ trimmed_end l r.
Proof. exact (trim_end_ok schar a l). Qed.
Theorem C34_trim_partial schar a l : shows a l -> Forall is_byte l -> (schar = true -> Forall (fun b => b < 128) l) ->
  exists v r t, trim schar a = Ok v /\ shows v r /\ trimmed_start l t /\ trimmed_end t r.
Proof. exact (trim_ok schar a l). Qed.
(** Where char is signed (x86), bytes from 0x80 on are trimmed too: "é" becomes empty. *)
Theorem C34_trim_signed_char_refuted : ~ (forall a l, shows a l -> Forall is_byte l -> exists v r, trim_end true a = Ok v /\ shows v r /\ trimmed_end l r).
Proof.
  intros H. destruct (H (V [0xC3; 0xA9] 0 2) [0xC3; 0xA9]) as (v & r & E & S & (z & El & Hz & _)); [split; [bytes|reflexivity]|repeat constructor; lia|].
  vm_compute in E. injection E as <-. destruct S as [_ S]. cbn [size] in S. destruct r; [|rewrite zlen_cons in S; pose proof (zlen_nonneg r); lia].
  cbn [app] in El. rewrite <- El in Hz. inversion Hz as [|? ? Hb _]. unfold blank in Hb. lia.
Qed.
Example trim_case : trim true (V [32; 9; 97; 32; 98; 10] 0 6) = Ok (V [32; 9; 97; 32; 98; 10] 2 3) /\ trim false (V [0xC3; 0xA9; 32] 0 3) = Ok (V [0xC3; 0xA9; 32] 0 2) /\
  trim true (V [0xC3; 0xA9; 32] 0 3) = Ok (V [0xC3; 0xA9; 32] 3 0).
Proof. repeat split. Qed.

(** C41. *)
Theorem C41_cmp_is_lexicographic x y l l' : shows x l -> shows y l' -> exists c, cmp x y = Ok c /\ (c ?= 0) = lex l l'.
Proof. exact (cmp_ok x y l l'). Qed.
Theorem C41_eq x y l l' : shows x l -> shows y l' -> exists v, equals_sv x y = Ok v /\ (v = true <-> l = l').
Proof. exact (equals_sv_ok x y l l'). Qed.
Theorem C41_cmp_zero_iff_eq x y l l' c v : shows x l -> shows y l' -> cmp x y = Ok c -> equals_sv x y = Ok v -> (c = 0 <-> v = true).
Proof.
  intros H1 H2 E1 E2. destruct (cmp_ok x y l l' H1 H2) as (c' & E1' & R). destruct (equals_sv_ok x y l l' H1 H2) as (v' & E2' & R2). rewrite E1 in E1'. rewrite E2 in E2'.
  injection E1' as <-. injection E2' as <-. rewrite R2, <- lex_eq, <- R. symmetry. apply Z.compare_eq_iff.
Qed.
Theorem C41_lexicographic_is_total a b c : (lex a b = Eq <-> a = b) /\ lex b a = CompOpp (lex a b) /\ (lex a b = Lt -> lex b c = Lt -> lex a c = Lt).
Proof. split; [exact (lex_eq a b)|]. split; [exact (lex_sym a b)|exact (lex_trans a b c)]. Qed.
(** zsview_cmp and cstr_cmp (strcmp): right without zero bytes. *)
Theorem C41_strcmp_partial m1 p1 l1 m2 p2 l2 : zstring m1 p1 l1 -> zstring m2 p2 l2 -> Forall is_byte l1 -> Forall is_byte l2 ->
  exists c, strcmp m1 p1 m2 p2 = Ok c /\ (c ?= 0) = lex l1 l2.
Proof. exact (strcmp_ok l1 l2 m1 p1 m2 p2). Qed.
(** With a zero byte inside, cstr_cmp says equal where cstr_eq says different. *)
Theorem C41_strcmp_zero_bytes_refuted : ~ (forall m1 l1 m2 l2 c v, holds_at m1 0 (l1 ++ [0]) -> holds_at m2 0 (l2 ++ [0]) ->
  strcmp m1 0 m2 0 = Ok c -> equals_sv (V m1 0 (zlen l1)) (V m2 0 (zlen l2)) = Ok v -> (c = 0 <-> v = true)).
Proof.
  intros H. specialize (H [97; 0; 98; 0] [97; 0; 98] [97; 0; 99; 0] [97; 0; 99] 0 false). destruct H as [H _]; [bytes|bytes|reflexivity|reflexivity|]. discriminate (H eq_refl).
Qed.
Example cmp_case : cmp (V [97; 0xE9] 0 2) (V [97; 98; 99] 0 3) = Ok (0xE9 - 98) /\ cmp (V [97] 0 1) (V [97; 0] 0 2) = Ok (-1).
Proof. split; reflexivity. Qed.

(** C42.  There is one function of the bytes that all hashes compute, whatever the memory
    around the key; the key may end where the memory ends. *)
Theorem C42_basehash_depends_on_bytes : exists h : list Z -> Z, forall m p l, holds_at m p l -> basehash m p (zlen l) = Ok (h l) /\ 0 <= h l < 2 ^ 64.
Proof. exists hash_of. exact basehash_ok. Qed.
Theorem C42_hash_depends_on_bytes : exists h : list Z -> Z, forall m p l, holds_at m p l -> hash_n m p (zlen l) = Ok (h l) /\ 0 <= h l < 2 ^ 64.
Proof. exists hash_n_of. exact hash_n_ok. Qed.
Theorem C42_equal_views_hash_equal a b v : equals_sv a b = Ok v -> forall l l', shows a l -> shows b l' -> v = true -> exists h, hash a = Ok h /\ hash b = Ok h.
Proof.
  intros E l l' HA HB ->. destruct (equals_sv_ok a b l l' HA HB) as (v & E' & H). rewrite E in E'. injection E' as <-. destruct (proj1 H eq_refl). destruct HA as [HA EA], HB as [HB EB].
  exists (hash_of l). unfold hash. rewrite EA, EB. split; [exact (proj1 (basehash_ok _ _ _ HA))|exact (proj1 (basehash_ok _ _ _ HB))].
Qed.
(** csview_hash, zsview_hash and c_hash_str agree on the same bytes. *)
Theorem C42_hash_str m p a l : zstring m p l -> shows a l -> exists h, hash_str m p = Ok h /\ hash a = Ok h.
Proof.
  intros HZ [HA EA]. exists (hash_of l). unfold hash_str, hash. rewrite (strlen_ok _ _ _ HZ), EA. cbn [bind]. destruct HZ as [_ HZ]. apply at_app in HZ as [HZ _].
  split; [exact (proj1 (basehash_ok _ _ _ HZ))|exact (proj1 (basehash_ok _ _ _ HA))].
Qed.
Example hash_case : exists h, basehash [1; 2; 3; 4; 5; 6; 7; 8; 9; 10; 11; 12] 1 9 = Ok h /\ basehash [2; 3; 4; 5; 6; 7; 8; 9; 10] 0 9 = Ok h /\ basehash [2; 3; 4; 5; 6; 7; 8; 9; 11] 0 9 <> Ok h.
Proof. eexists. split; [vm_compute; reflexivity|]. split; [vm_compute; reflexivity|]. vm_compute. discriminate. Qed.

(** C38 (views of well-formed text). *)
Theorem C38_u8_tail a cs k : shows a (enc_all cs) -> Forall scalar cs -> exists v, u8_tail a (Z.of_nat k) = Ok v /\ shows v (enc_all (skipn (length cs - k) cs)).
Proof. exact (u8_tail_ok a cs k). Qed.
(** These read the byte after the view; right when it is readable and starts a character. *)
Theorem C38_u8_subview_partial a cs x i k : shows a (enc_all cs) -> Forall scalar cs -> holds_at (mem a) (buf a) (enc_all cs ++ [x]) -> is_cont x = false ->
  exists v, u8_subview a (Z.of_nat i) (Z.of_nat k) = Ok v /\ shows v (enc_all (firstn k (skipn i cs))).
Proof. exact (u8_subview_ok a cs x i k). Qed.
Theorem C38_u8_at_partial a cs x i c : shows a (enc_all cs) -> Forall scalar cs -> holds_at (mem a) (buf a) (enc_all cs ++ [x]) -> is_cont x = false -> nth_error cs i = Some c ->
  exists v, u8_at a (Z.of_nat i) = Ok v /\ shows v (enc c).
Proof. exact (u8_at_ok a cs x i c). Qed.
Theorem C38_u8_subview_reads_past_view_refuted : ~ (forall a cs i k, shows a (enc_all cs) -> Forall scalar cs ->
  exists v, u8_subview a (Z.of_nat i) (Z.of_nat k) = Ok v /\ shows v (enc_all (firstn k (skipn i cs)))).
Proof.
  intros H. destruct (H (V [97; 98] 0 2) [97; 98] 0%nat 2%nat) as (v & E & _); [split; [bytes|reflexivity]|repeat constructor; unfold scalar; lia|]. discriminate E.
Qed.
(** zsview_u8_subview, cstr_u8_subview, csview_u8_from: zero-terminated text. *)
Theorem C38_z_u8_subview m p cs i k : Forall scalar cs -> zstring m p (enc_all cs) ->
  u8subview m p (Z.of_nat i) (Z.of_nat k) = Ok (p + cp_offset cs i, cp_offset (skipn i cs) k) /\ shows (V m (p + cp_offset cs i) (cp_offset (skipn i cs) k)) (enc_all (firstn k (skipn i cs))).
Proof.
  intros Hs HZ. assert (H2 : Forall scalar (skipn i cs)) by (rewrite <- (firstn_skipn i cs) in Hs; now apply Forall_app in Hs). pose proof (at_sub m p cs i HZ) as HZ2. split.
  - unfold u8subview, to_index. destruct (u8at_ok m p cs i Hs HZ) as [-> _]. cbn [bind]. destruct (u8at_ok m _ (skipn i cs) k H2 HZ2) as [-> _]. cbn [bind]. do 2 f_equal. lia.
  - split; [|reflexivity]. destruct HZ2 as [_ HA]. apply at_app in HA as [HA _]. rewrite <- (firstn_skipn k (skipn i cs)), enc_all_app in HA. now apply at_app in HA.
Qed.
Example u8_case : u8_tail (V [0x61; 0xC3; 0xA9; 0xE2; 0x82; 0xAC] 0 6) 2 = Ok (V [0x61; 0xC3; 0xA9; 0xE2; 0x82; 0xAC] 1 5) /\
  u8_subview (V [0x61; 0xC3; 0xA9; 0x62] 0 3) 1 1 = Ok (V [0x61; 0xC3; 0xA9; 0x62] 1 2).
Proof. split; reflexivity. Qed.

(** C03 (characters).  A loop over a non-empty string yields each character once, in order. *)
Theorem C03_chars_partial m p cs : Forall scalar cs -> cs <> [] -> zstring m p (enc_all cs) -> z_each m p = Ok (char_spans p cs).
Proof. exact (z_each_ok m p cs). Qed.
Theorem C03_view_chars_partial a cs x : Forall scalar cs -> cs <> [] -> holds_at (mem a) (buf a) (enc_all cs ++ [x]) -> size a = zlen (enc_all cs) -> each a = Ok (char_spans (buf a) cs).
Proof. exact (each_ok a cs x). Qed.
(** An empty string is not skipped: bytes after its terminator are visited (here "b", left
    over in the buffer of a cleared string). *)
Theorem C03_empty_string_refuted : ~ (forall m p, zstring m p [] -> z_each m p = Ok []).
Proof. intros H. specialize (H [0; 98; 0] 0). assert (E : z_each [0; 98; 0] 0 = Ok []) by (apply H; split; [cbn; lia|exists [], [98; 0]; split; reflexivity]). discriminate E. Qed.
Theorem C03_empty_view_refuted : ~ (forall a, shows a [] -> each a = Ok []).
Proof. intros H. specialize (H (V [97; 98] 0 0)). assert (E : each (V [97; 98] 0 0) = Ok []) by (apply H; split; [exists [], [97; 98]; split; reflexivity|reflexivity]). discriminate E. Qed.
Example chars_case : z_each [0x61; 0xC3; 0xA9; 0x62; 0] 0 = Ok [(0, 1); (1, 2); (3, 1)] /\ z_each [0; 98; 0] 0 = Ok [(0, 1); (1, 1)].
Proof. split; reflexivity. Qed.

(** C40 (views). *)
Theorem C40_iequals_partial schar a b cs1 cs2 : shows a (enc_all cs1) -> shows b (enc_all cs2) -> zlen (enc_all cs1) < 2 ^ 31 -> zlen (enc_all cs2) < 2 ^ 31 ->
  Forall scalar cs1 -> Forall scalar cs2 -> ~ In 0 cs2 -> keeps cs1 -> keeps cs2 ->
  exists v, iequals_sv schar a b = Ok v /\ (v = true <-> zlen (enc_all cs1) = zlen (enc_all cs2) /\ map casefold cs1 = map casefold cs2).
Proof. exact (iequals_ok schar a b cs1 cs2). Qed.
(** istarts_with compares the whole strings, not a prefix. *)
Theorem C40_istarts_with_partial schar a m p cs1 cs2 : shows a (enc_all cs1) -> zstring m p (enc_all cs2) -> zlen (enc_all cs1) < 2 ^ 31 ->
  Forall scalar cs1 -> Forall scalar cs2 -> keeps cs1 -> keeps cs2 ->
  exists v, istarts_with schar a m p = Ok v /\ (v = true <-> zlen (enc_all cs2) <= zlen (enc_all cs1) /\ map casefold cs1 = map casefold cs2).
Proof. exact (istarts_ok schar a m p cs1 cs2). Qed.
(** "Hello" does not start with "he", says csview_istarts_with; nor zsview_istarts_with. *)
Theorem C40_istarts_with_refuted :
  ~ (forall schar a m p cs1 cs2 v, shows a (enc_all cs1) -> zstring m p (enc_all cs2) -> Forall scalar cs1 -> Forall scalar cs2 ->
     istarts_with schar a m p = Ok v -> (v = true <-> exists r, map casefold cs1 = map casefold cs2 ++ r)) /\
  ~ (forall schar m1 p1 m p cs1 cs2 v, zstring m1 p1 (enc_all cs1) -> zstring m p (enc_all cs2) -> Forall scalar cs1 -> Forall scalar cs2 ->
     z_istarts_with schar m1 p1 (zlen (enc_all cs1)) m p = Ok v -> (v = true <-> exists r, map casefold cs1 = map casefold cs2 ++ r)).
Proof.
  assert (S1 : Forall scalar [72; 101; 108; 108; 111]) by (repeat constructor; unfold scalar; lia). assert (S2 : Forall scalar [104; 101]) by (repeat constructor; unfold scalar; lia).
  assert (W : exists r, map casefold [72; 101; 108; 108; 111] = map casefold [104; 101] ++ r) by (exists [108; 108; 111]; vm_compute; reflexivity). split; intros H.
  - destruct (H true (V [72; 101; 108; 108; 111] 0 5) [104; 101; 0] 0 [72; 101; 108; 108; 111] [104; 101] false) as [_ H']; [split; [bytes|reflexivity]|zstr|exact S1|exact S2|vm_compute; reflexivity|]. discriminate (H' W).
  - destruct (H true [72; 101; 108; 108; 111; 0] 0 [104; 101; 0] 0 [72; 101; 108; 108; 111] [104; 101] false) as [_ H']; [zstr|zstr|exact S1|exact S2|vm_compute; reflexivity|]. discriminate (H' W).
Qed.
(** iends_with on zero-terminated text: compares the last bytes, as many as the suffix has. *)
Theorem C40_iends_with_partial schar a m p b1 b2 cs : zstring (mem a) (buf a) (enc_all (b1 ++ b2)) -> size a = zlen (enc_all (b1 ++ b2)) -> zstring m p (enc_all cs) ->
  Forall scalar (b1 ++ b2) -> Forall scalar cs -> zlen (enc_all b2) = zlen (enc_all cs) -> zlen (mem a) < 2 ^ 63 - 1 -> zlen m < 2 ^ 63 - 1 ->
  exists v, iends_with schar a m p = Ok v /\ (v = true <-> map casefold b2 = map casefold cs).
Proof. exact (iends_ok schar a m p b1 b2 cs). Qed.
(** On a view that is followed by other bytes it looks at them: "Hello" in "Helloo" does not end with "lo". *)
Theorem C40_iends_with_view_refuted : ~ (forall schar a m p cs1 cs2 v, shows a (enc_all cs1) -> zstring m p (enc_all cs2) -> Forall scalar cs1 -> Forall scalar cs2 ->
  iends_with schar a m p = Ok v -> (v = true <-> exists r, map casefold cs1 = r ++ map casefold cs2)).
Proof.
  intros H. destruct (H true (V [72; 101; 108; 108; 111; 111; 0] 0 5) [108; 111; 0] 0 [72; 101; 108; 108; 111] [108; 111] false) as [_ H'];
    [split; [exists [], [111; 0]; split; reflexivity|reflexivity]|zstr|repeat constructor; unfold scalar; lia|repeat constructor; unfold scalar; lia|vm_compute; reflexivity|].
  assert (W : exists r, map casefold [72; 101; 108; 108; 111] = r ++ map casefold [108; 111]) by (exists [104; 101; 108]; vm_compute; reflexivity). discriminate (H' W).
Qed.

Print Assumptions C30_find_sv.
Print Assumptions C30_find.
Print Assumptions C30_contains.
Print Assumptions C30_starts_with.
Print Assumptions C30_ends_with.
Print Assumptions C30_first_unique.
Print Assumptions C30_z_find_partial.
Print Assumptions C30_z_find_after_zero_refuted.
Print Assumptions C32_tokens.
Print Assumptions C32_split_unique.
Print Assumptions C32_empty_separator_loops.
Print Assumptions C33_subview.
Print Assumptions C33_subview_rejects.
Print Assumptions C33_slice.
Print Assumptions C33_subview_pro.
Print Assumptions C33_z_tail.
Print Assumptions C33_z_from_pos.
Print Assumptions C33_tail_partial.
Print Assumptions C33_tail_clamps_refuted.
Print Assumptions C33_subview_any_length_refuted.
Print Assumptions C34_trim_start_partial.
Print Assumptions C34_trim_end_partial.
Print Assumptions C34_trim_partial.
Print Assumptions C34_trim_signed_char_refuted.
Print Assumptions C41_cmp_is_lexicographic.
Print Assumptions C41_eq.
Print Assumptions C41_cmp_zero_iff_eq.
Print Assumptions C41_lexicographic_is_total.
Print Assumptions C41_strcmp_partial.
Print Assumptions C41_strcmp_zero_bytes_refuted.
Print Assumptions C42_basehash_depends_on_bytes.
Print Assumptions C42_hash_depends_on_bytes.
Print Assumptions C42_equal_views_hash_equal.
Print Assumptions C42_hash_str.
Print Assumptions C38_u8_tail.
Print Assumptions C38_u8_subview_partial.
Print Assumptions C38_u8_at_partial.
Print Assumptions C38_u8_subview_reads_past_view_refuted.
Print Assumptions C38_z_u8_subview.
Print Assumptions C03_chars_partial.
Print Assumptions C03_view_chars_partial.
Print Assumptions C03_empty_string_refuted.
Print Assumptions C03_empty_view_refuted.
Print Assumptions C40_iequals_partial.
Print Assumptions C40_istarts_with_partial.
Print Assumptions C40_istarts_with_refuted.
Print Assumptions C40_iends_with_partial.
Print Assumptions C40_iends_with_view_refuted.
