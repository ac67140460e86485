(** Model of csview.h, zsview.h and of the string functions of common.h.

    Memory is a list [m] of bytes, a view is a memory, a start index and a size; reading
    outside the memory is [Err OOB].  Pointers are indices; a view returned by a function is
    given by its start and size.  ISIZE_MAX is 2^63 - 1. *)
From Verif Require Import Base Utf8_Model.

Definition imax : Z := 2 ^ 63 - 1.
Record view := V { mem : list Z; buf : Z; size : Z }.
(** signed addition of isize values *)
Definition iadd (a b : Z) : res Z := if (- 2 ^ 63 <=? a + b) && (a + b <=? imax) then Ok (a + b) else Err Overflow.

(** memcmp (libc): the difference of the first bytes that differ.  C leaves all but the
    sign of the result open. *)
Fixpoint memcmp_n (n : nat) (m1 : list Z) (p1 : Z) (m2 : list Z) (p2 : Z) : res Z :=
  match n with
  | O => Ok 0
  | S k =>
    let* a := aget m1 p1 in let* b := aget m2 p2 in
    if a =? b then memcmp_n k m1 (p1 + 1) m2 (p2 + 1) else Ok (a - b)
  end.
Definition memcmp (m1 : list Z) (p1 : Z) (m2 : list Z) (p2 n : Z) : res Z := memcmp_n (Z.to_nat n) m1 p1 m2 p2.
(** strlen (libc). *)
Fixpoint strlen_n (fuel : nat) (m : list Z) (p : Z) : res Z :=
  match fuel with
  | O => Err OutOfFuel
  | S k => let* b := aget m p in if b =? 0 then Ok 0 else let* n := strlen_n k m (p + 1) in Ok (n + 1)
  end.
Definition strlen (m : list Z) (p : Z) : res Z := strlen_n (S (length m)) m p.
(** strcmp (libc), on unsigned bytes. *)
Fixpoint strcmp_n (fuel : nat) (m1 : list Z) (p1 : Z) (m2 : list Z) (p2 : Z) : res Z :=
  match fuel with
  | O => Err OutOfFuel
  | S k =>
    let* a := aget m1 p1 in let* b := aget m2 p2 in
    if negb (a =? b) then Ok (a - b) else if a =? 0 then Ok 0 else strcmp_n k m1 (p1 + 1) m2 (p2 + 1)
  end.
Definition strcmp (m1 : list Z) (p1 : Z) (m2 : list Z) (p2 : Z) : res Z := strcmp_n (S (length m1)) m1 p1 m2 p2.

(** common.h 308-319 c_strnstrn: the index found, or None for NULL. *)
Fixpoint strnstrn_loop (fuel : nat) (m : list Z) (str slen : Z) (nm : list Z) (needle nlen : Z) : res (option Z) :=
  match fuel with
  | O => Err OutOfFuel
  | S k =>
    let* a := aget m str in let* b := aget nm needle in
    let* hit := if a =? b then let* c := memcmp m str nm needle nlen in Ok (c =? 0) else Ok false in
    if hit then Ok (Some str)
    else if slen =? 0 then Ok None
    else strnstrn_loop k m (str + 1) (slen - 1) nm needle nlen
  end.
Definition strnstrn (m : list Z) (str slen : Z) (nm : list Z) (needle nlen : Z) : res (option Z) :=
  if nlen =? 0 then Ok (Some str)
  else if slen <? nlen then Ok None
  else strnstrn_loop (S (length m)) m str (slen - nlen) nm needle nlen.
(** strstr (libc), by its specification: the first occurrence in the zero-terminated string. *)
Definition strstr (m : list Z) (p : Z) (nm : list Z) (needle : Z) : res (option Z) :=
  let* n := strlen m p in let* k := strlen nm needle in strnstrn m p n nm needle k.

(** common.h 252-264 c_basehash_n, for an 8 byte little-endian size_t. *)
Definition W64 : Z := 2 ^ 64.
Fixpoint le_val (l : list Z) : Z := match l with [] => 0 | b :: r => b + 256 * le_val r end.
(** memcpy of the bytes [l] over the low bytes of [block]. *)
Definition over (block : Z) (l : list Z) : Z :=
  let k := 2 ^ (8 * zlen l) in block / k * k + le_val l.
Fixpoint basehash_loop (fuel : nat) (m : list Z) (msg len block hash : Z) : res Z :=
  match fuel with
  | O => Err OutOfFuel
  | S k =>
    if 8 <? len then
      let* l := aslice m msg 8 in
      let block := over block l in
      basehash_loop k m (msg + 8) (len - 8) block (Z.lxor hash block * 0x89bb179901000193 mod W64)
    else
      let* l := aslice m msg len in
      let block := over block l in
      let hash := Z.lxor hash block * 0xb0340f4501000193 mod W64 in
      Ok (Z.lxor hash (Z.shiftr hash 3))
  end.
Definition basehash (m : list Z) (p len : Z) : res Z := basehash_loop (S (length m)) m p len 0 0x811c9dc5.
(** common.h 266-273 c_hash_n. *)
Definition hash_n (m : list Z) (p len : Z) : res Z :=
  if len =? 8 then let* l := aslice m p 8 in Ok (le_val l * 0xc6a4a7935bd1e99d mod W64)
  else if len =? 4 then let* l := aslice m p 4 in Ok (le_val l * 0xa2ffeb2f01000193 mod W64)
  else basehash m p len.
(** common.h 275-276 c_hash_str. *)
Definition hash_str (m : list Z) (p : Z) : res Z := let* n := strlen m p in basehash m p n.
(** common.h 281-284 _chash_mix. *)
Fixpoint chash_mix (h0 : Z) (h : list Z) : Z :=
  match h with [] => h0 | x :: r => chash_mix ((h0 + Z.lxor h0 x) mod W64) r end.

(** ** csview.h *)
(** 43-44 csview_from; the others (45-50) are constructors and projections. *)
Definition from (m : list Z) (p : Z) : res view := let* n := strlen m p in Ok (V m p n).
(** 52-53 csview_equals_sv, 151-152 csview_eq; 55-56 csview_equals. *)
Definition equals_sv (a b : view) : res bool :=
  if size a =? size b then let* c := memcmp (mem a) (buf a) (mem b) (buf b) (size a) in Ok (c =? 0) else Ok false.
Definition equals (a : view) (m : list Z) (p : Z) : res bool := let* b := from m p in equals_sv a b.
(** 58-59 csview_hash. *)
Definition hash (a : view) : res Z := basehash (mem a) (buf a) (size a).
(** 61-64 csview_find_sv: None for c_NPOS; 66-67 csview_find; 69-70 csview_contains. *)
Definition find_sv (a s : view) : res (option Z) :=
  let* r := strnstrn (mem a) (buf a) (size a) (mem s) (buf s) (size s) in
  Ok (match r with Some i => Some (i - buf a) | None => None end).
Definition find (a : view) (m : list Z) (p : Z) : res (option Z) := let* s := from m p in find_sv a s.
Definition contains (a : view) (m : list Z) (p : Z) : res bool :=
  let* r := find a m p in Ok (match r with Some _ => true | None => false end).
(** 72-75 csview_starts_with, 77-80 csview_ends_with. *)
Definition starts_with (a : view) (m : list Z) (p : Z) : res bool :=
  let* n := strlen m p in
  if n <=? size a then let* c := memcmp (mem a) (buf a) m p n in Ok (c =? 0) else Ok false.
Definition ends_with (a : view) (m : list Z) (p : Z) : res bool :=
  let* n := strlen m p in
  if n <=? size a then let* c := memcmp (mem a) (buf a + size a - n) m p n in Ok (c =? 0) else Ok false.
(** (size_t)a <= (size_t)b. *)
Definition ule (a b : Z) : bool := a mod 2 ^ 64 <=? b mod 2 ^ 64.
(** 82-87 csview_subview; also cstr_subview (cstr_prv.h 182-187), zsview_subview (zsview.h 74-78). *)
Definition subview (a : view) (pos len : Z) : res view :=
  if negb (ule pos (size a) && (0 <=? len)) then Err AssertFail else
  let* e := iadd pos len in
  let len := if size a <? e then size a - pos else len in
  Ok (V (mem a) (buf a + pos) len).
(** 89-94 csview_slice. *)
Definition slice (a : view) (p1 p2 : Z) : res view :=
  if negb (ule p1 p2 && ule p1 (size a)) then Err AssertFail else
  let p2 := if size a <? p2 then size a else p2 in
  Ok (V (mem a) (buf a + p1) (p2 - p1)).
(** 96-97 csview_trim_start, 99-100 csview_trim_end, 102-103 csview_trim; [schar]: char is signed. *)
Fixpoint trim_start_n (fuel : nat) (schar : bool) (a : view) : res view :=
  match fuel with
  | O => Err OutOfFuel
  | S k =>
    if size a =? 0 then Ok a else
    let* b := aget (mem a) (buf a) in
    if to_char schar b <=? 32 then trim_start_n k schar (V (mem a) (buf a + 1) (size a - 1)) else Ok a
  end.
Definition trim_start (schar : bool) (a : view) : res view := trim_start_n (S (Z.to_nat (size a))) schar a.
Fixpoint trim_end_n (fuel : nat) (schar : bool) (a : view) : res view :=
  match fuel with
  | O => Err OutOfFuel
  | S k =>
    if size a =? 0 then Ok a else
    let* b := aget (mem a) (buf a + size a - 1) in
    if to_char schar b <=? 32 then trim_end_n k schar (V (mem a) (buf a) (size a - 1)) else Ok a
  end.
Definition trim_end (schar : bool) (a : view) : res view := trim_end_n (S (Z.to_nat (size a))) schar a.
Definition trim (schar : bool) (a : view) : res view := let* b := trim_start schar a in trim_end schar b.
(** 105-106 csview_tail. *)
Definition tail (a : view) (len : Z) : res view := subview a (size a - len) len.
(** 195-204 csview_subview_pro. *)
Definition subview_pro (a : view) (pos len : Z) : res view :=
  let pos := if pos <? 0 then (if pos + size a <? 0 then 0 else pos + size a) else pos in
  let pos := if size a <? pos then size a else pos in
  let* e := iadd pos len in
  let len := if size a <? e then size a - pos else len in
  Ok (V (mem a) (buf a + pos) len).
(** 206-213 csview_token: the token and the new position. *)
Definition token (a : view) (sm : list Z) (sep : Z) (pos : Z) : res (view * Z) :=
  let* n := strlen sm sep in
  let b := buf a + pos in
  let k := size a - pos in
  let* r := strnstrn (mem a) b k sm sep n in
  let t := match r with Some i => i - b | None => k end in
  Ok (V (mem a) b t, pos + (t + n)).
(** 135-138 c_token_sv: all tokens of the loop (a view with a non-NULL buf). *)
Fixpoint tokens_n (fuel : nat) (a : view) (sm : list Z) (sep pos : Z) : res (list view) :=
  match fuel with
  | O => Err OutOfFuel
  | S k =>
    if pos <=? size a then
      let* r := token a sm sep pos in
      let* ts := tokens_n k a sm sep (snd r) in Ok (fst r :: ts)
    else Ok []
  end.
Definition tokens (a : view) (sm : list Z) (sep : Z) : res (list view) := tokens_n (S (S (Z.to_nat (size a)))) a sm sep 0.
(** 145-149 csview_cmp. *)
Definition cmp (x y : view) : res Z :=
  let n := if size x <? size y then size x else size y in
  let* c := memcmp (mem x) (buf x) (mem y) (buf y) n in
  Ok (if negb (c =? 0) then c else (if size y <? size x then 1 else 0) - (if size x <? size y then 1 else 0)).
(** 156-157 csview_iequals_sv (and 162-163 ieq), 159-160 iequals, 165-166 icmp. *)
Definition iequals_sv (schar : bool) (a b : view) : res bool :=
  if size a =? size b then let* c := icompare schar (mem a) (buf a) (size a) (mem b) (buf b) (size b) in Ok (c =? 0) else Ok false.
Definition iequals (schar : bool) (a : view) (m : list Z) (p : Z) : res bool := let* b := from m p in iequals_sv schar a b.
Definition view_icmp (schar : bool) (a b : view) : res Z := icompare schar (mem a) (buf a) (size a) (mem b) (buf b) (size b).
(** 168-171 csview_istarts_with (cstr_prv.h 273-277 is the same); 173-176 csview_iends_with. *)
Definition istarts_with (schar : bool) (a : view) (m : list Z) (p : Z) : res bool :=
  let* n := strlen m p in
  if n <=? size a then let* c := icompare schar (mem a) (buf a) (size a) m p n in Ok (c =? 0) else Ok false.
Definition iends_with (schar : bool) (a : view) (m : list Z) (p : Z) : res bool :=
  let* n := strlen m p in
  if n <=? size a then let* c := icmp schar (mem a) (buf a + size a - n) m p in Ok (c =? 0) else Ok false.

(** UTF-8 functions of views.  225-230 csview_u8_tail, zsview.h 92-98, cstr_prv.h 207-213:
    the start of the tail. *)
Fixpoint back_loop (fuel : nat) (m : list Z) (b p u8len : Z) : res Z :=
  match fuel with
  | O => Err OutOfFuel
  | S k =>
    if (u8len =? 0) || (p =? b) then Ok p else
    let* c := aget m (p - 1) in
    back_loop k m b (p - 1) (if is_cont c then u8len else u8len - 1)
  end.
Definition u8_tail (a : view) (u8len : Z) : res view :=
  let* p := back_loop (S (Z.to_nat (size a))) (mem a) (buf a) (buf a + size a) u8len in
  Ok (V (mem a) p (size a - (p - buf a))).
(** 217-218, 220-221, 235-236: while ((u8pos > 0) & (s != end)) u8pos -= ( *++s & 0xC0) != 0x80. *)
Fixpoint fwd_loop (fuel : nat) (m : list Z) (s end_ u8pos : Z) : res Z :=
  match fuel with
  | O => Err OutOfFuel
  | S k =>
    if (0 <? u8pos) && negb (s =? end_) then
      let* c := aget m (s + 1) in
      fwd_loop k m (s + 1) end_ (if is_cont c then u8pos else u8pos - 1)
    else Ok s
  end.
(** 215-223 csview_u8_subview; 233-239 csview_u8_at: the character. *)
Definition u8_subview (a : view) (u8pos u8len : Z) : res view :=
  let end_ := buf a + size a in
  let f := S (Z.to_nat (size a)) in
  let* b := fwd_loop f (mem a) (buf a) end_ u8pos in
  let* s := fwd_loop f (mem a) b end_ u8len in
  Ok (V (mem a) b (s - b)).
Definition u8_at (a : view) (u8pos : Z) : res view :=
  let end_ := buf a + size a in
  let* b := fwd_loop (S (Z.to_nat (size a))) (mem a) (buf a) end_ u8pos in
  let* n := chr_size (mem a) b in
  if b =? end_ then Err AssertFail else Ok (V (mem a) b n).
(** 109-121 csview_begin, csview_next: the characters of a c_each loop.  The loop ends when
    [ref] is NULL, that is when it equals [end] after a step; [csview_begin] does not test. *)
Fixpoint each_n (fuel : nat) (m : list Z) (ref n end_ : Z) : res (list (Z * Z)) :=
  match fuel with
  | O => Err OutOfFuel
  | S k =>
    let r := ref + n in
    let* n' := chr_size m r in
    if r =? end_ then Ok [(ref, n)] else
    let* l := each_n k m r n' end_ in Ok ((ref, n) :: l)
  end.
Definition each (a : view) : res (list (Z * Z)) :=
  let* n := chr_size (mem a) (buf a) in
  each_n (S (length (mem a))) (mem a) (buf a) n (buf a + size a).

(** ** zsview.h: [m] at [p] is zero-terminated, [n] its size. *)
(** 51-54 zsview_find (also cstr_find, cstr_prv.h 312-315). *)
Definition z_find (m : list Z) (p : Z) (sm : list Z) (s : Z) : res (option Z) :=
  let* r := strstr m p sm s in Ok (match r with Some i => Some (i - p) | None => None end).
(** 69-72 zsview_from_pos; 80-85 zsview_tail (also cstr_tail, cstr_prv.h 189-194). *)
Definition z_from_pos (a : view) (pos : Z) : view :=
  let pos := if size a <? pos then size a else pos in V (mem a) (buf a + pos) (size a - pos).
Definition z_tail (a : view) (len : Z) : res view :=
  if len <? 0 then Err AssertFail else
  let len := if size a <? len then size a else len in
  Ok (V (mem a) (buf a + (size a - len)) len).
(** 118-130 zsview_begin, zsview_next, cstr_prv.h 228-240 cstr_begin, cstr_next. *)
Fixpoint z_each_n (fuel : nat) (m : list Z) (ref n : Z) : res (list (Z * Z)) :=
  match fuel with
  | O => Err OutOfFuel
  | S k =>
    let r := ref + n in
    let* n' := chr_size m r in
    let* b := aget m r in
    if b =? 0 then Ok [(ref, n)] else
    let* l := z_each_n k m r n' in Ok ((ref, n) :: l)
  end.
Definition z_each (m : list Z) (p : Z) : res (list (Z * Z)) :=
  let* n := chr_size m p in z_each_n (S (length m)) m p n.
(** 144-145 zsview_cmp, cstr_prv.h 298-299 cstr_cmp: strcmp.
    161-162 zsview_istarts_with. *)
Definition z_istarts_with (schar : bool) (m : list Z) (p n : Z) (sm : list Z) (s : Z) : res bool :=
  let* k := strlen sm s in
  if k <=? n then let* c := icmp schar m p sm s in Ok (c =? 0) else Ok false.
