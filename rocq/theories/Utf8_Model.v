(** Model of utf8.h: priv/utf8_prv.h and priv/utf8_prv.c.

    A char array is a list [m] of bytes 0..255, a pointer into it is an index, a
    zero-terminated string at [p] is the bytes from [p] up to the first 0.  Reading outside
    [m] is [Err OOB].  Loops take a bound on their number of rounds ([fuel]). *)
From Verif Require Import Base Utf8_Tab.

(** ( *p & 0xC0) == 0x80. *)
Definition is_cont (b : Z) : bool := Z.land b 0xC0 =? 0x80.

(** utf8_prv.h 30-38 utf8_chr_size. *)
Definition chr_size (m : list Z) (s : Z) : res Z :=
  let* b := aget m s in
  Ok (if b <? 0x80 then 1 else if b <? 0xE0 then 2 else if b <? 0xF0 then 3 else 4).

(** utf8_prv.h 41-46 utf8_count. *)
Fixpoint count_loop (fuel : nat) (m : list Z) (s size : Z) : res Z :=
  match fuel with
  | O => Err OutOfFuel
  | S k =>
    let* b := aget m s in
    if b =? 0 then Ok size else
    let* c := aget m (s + 1) in
    count_loop k m (s + 1) (if is_cont c then size else size + 1)
  end.
Definition count (m : list Z) (s : Z) : res Z := count_loop (S (length m)) m s 0.

(** utf8_prv.h 48-54 utf8_count_n: the test reads both operands of &. *)
Fixpoint count_n_loop (fuel : nat) (m : list Z) (s nbytes size : Z) : res Z :=
  match fuel with
  | O => Err OutOfFuel
  | S k =>
    let* b := aget m s in
    if negb (nbytes =? 0) && negb (b =? 0) then
      let* c := aget m (s + 1) in
      count_n_loop k m (s + 1) (nbytes - 1) (if is_cont c then size else size + 1)
    else Ok size
  end.
Definition count_n (m : list Z) (s nbytes : Z) : res Z := count_n_loop (S (length m)) m s nbytes 0.

(** utf8_prv.h 56-60 utf8_at. *)
Fixpoint at_loop (fuel : nat) (m : list Z) (s u8pos : Z) : res Z :=
  match fuel with
  | O => Err OutOfFuel
  | S k =>
    let* b := aget m s in
    if (0 <? u8pos) && negb (b =? 0) then
      let* c := aget m (s + 1) in
      at_loop k m (s + 1) (if is_cont c then u8pos else u8pos - 1)
    else Ok s
  end.
Definition u8at (m : list Z) (s u8pos : Z) : res Z := at_loop (S (length m)) m s u8pos.

(** utf8_prv.h 62-68 utf8_offset. *)
Fixpoint offset_loop (fuel : nat) (m : list Z) (inc s u8pos : Z) : res Z :=
  match fuel with
  | O => Err OutOfFuel
  | S k =>
    if u8pos =? 0 then Ok s else
    let* b := aget m s in
    if b =? 0 then Ok s else
    let* c := aget m (s + inc) in
    offset_loop k m inc (s + inc) (if is_cont c then u8pos else u8pos - 1)
  end.
Definition offset (m : list Z) (s u8pos : Z) : res Z :=
  if u8pos <? 0 then offset_loop (S (length m)) m (-1) s (- u8pos) else offset_loop (S (length m)) m 1 s u8pos.

(** utf8_prv.h 70-71 utf8_to_index; 73-78 utf8_subview: start and size of the view. *)
Definition to_index (m : list Z) (s u8pos : Z) : res Z := let* p := u8at m s u8pos in Ok (p - s).
Definition u8subview (m : list Z) (s u8pos u8len : Z) : res (Z * Z) :=
  let* b := u8at m s u8pos in let* n := to_index m b u8len in Ok (b, n).

(** utf8_prv.h 86-89, 107-112 utf8_decode: state and code point (32-bit). *)
Definition dstate : Type := (Z * Z)%type.
Definition decode (d : dstate) (byte : Z) : res dstate :=
  let* type := aget dtab byte in
  let codep := if fst d =? 0 then Z.land (Z.shiftr 0xff type) byte
               else Z.lor (Z.land byte 0x3f) (Z.shiftl (snd d) 6 mod 2 ^ 32) in
  let* st := aget dtab (256 + fst d + type) in Ok (st, codep).

(** utf8_prv.h 114-120 utf8_peek. *)
Fixpoint peek_loop (fuel : nat) (m : list Z) (s : Z) (d : dstate) : res dstate :=
  match fuel with
  | O => Err OutOfFuel
  | S k =>
    let* b := aget m s in
    let* d' := decode d b in
    if 12 <? fst d' then peek_loop k m (s + 1) d' else Ok d'
  end.
Definition peek (m : list Z) (s : Z) : res Z :=
  let* d := peek_loop (S (length m)) m s (0, 0) in Ok (if fst d =? 0 then snd d else 0xFFFD).
(** utf8_prv.c 69-71 utf8_peek_at. *)
Definition peek_at (m : list Z) (s off : Z) : res Z := let* p := offset m s off in peek m p.

(** utf8_prv.c 44-67 utf8_encode: the bytes written (none for a value that is not encoded).
    [c] is below 2^32. *)
Definition encode (c : Z) : list Z :=
  if c <? 0x80 then [c]
  else if c <? 0x800 then
    [Z.lor (Z.land (Z.shiftr c 6) 0x1F) 0xC0; Z.lor (Z.land c 0x3F) 0x80]
  else if c <? 0x10000 then
    if (c <? 0xD800) || (0xE000 <=? c) then
      [Z.lor (Z.land (Z.shiftr c 12) 0x0F) 0xE0; Z.lor (Z.land (Z.shiftr c 6) 0x3F) 0x80; Z.lor (Z.land c 0x3F) 0x80]
    else []
  else if c <? 0x110000 then
    [Z.lor (Z.land (Z.shiftr c 18) 0x07) 0xF0; Z.lor (Z.land (Z.shiftr c 12) 0x3F) 0x80;
     Z.lor (Z.land (Z.shiftr c 6) 0x3F) 0x80; Z.lor (Z.land c 0x3F) 0x80]
  else [].

(** utf8_prv.c 73-78 utf8_valid: the last byte decoded is the terminating 0. *)
Fixpoint valid_loop (fuel : nat) (m : list Z) (s : Z) (d : dstate) : res dstate :=
  match fuel with
  | O => Err OutOfFuel
  | S k =>
    let* b := aget m s in
    let* d' := decode d b in
    if negb (fst d' =? 12) && negb (b =? 0) then valid_loop k m (s + 1) d' else Ok d'
  end.
Definition valid (m : list Z) (s : Z) : res bool :=
  let* d := valid_loop (S (length m)) m s (0, 0) in Ok (fst d =? 0).
(** utf8_prv.c 80-86 utf8_valid_n. *)
Fixpoint valid_n_loop (fuel : nat) (m : list Z) (s nbytes : Z) (d : dstate) : res dstate :=
  match fuel with
  | O => Err OutOfFuel
  | S k =>
    if nbytes =? 0 then Ok d else
    let* b := aget m s in
    let* d' := decode d b in
    if (fst d' =? 12) || (b =? 0) then Ok d' else valid_n_loop k m (s + 1) (nbytes - 1) d'
  end.
Definition valid_n (m : list Z) (s nbytes : Z) : res bool :=
  let* d := valid_n_loop (S (length m)) m s nbytes (0, 0) in Ok (fst d =? 0).

(** utf8_prv.c 88-99, 101-112 utf8_casefold, utf8_tolower over their table entries. *)
Fixpoint fold_with (es : list (Z * Z * Z)) (c : Z) : Z :=
  match es with
  | [] => c
  | (c1, c2, m2) :: r =>
    if c <=? c2 then
      if c <? c1 then c else
      let d := m2 - c2 in
      if d =? 1 then c + (if Z.land c2 1 =? Z.land c 1 then 1 else 0) else c + d
    else fold_with r c
  end.
(** utf8_prv.c 114-125 utf8_toupper over its table entries. *)
Fixpoint upper_with (es : list (Z * Z * Z)) (c : Z) : Z :=
  match es with
  | [] => c
  | (c1, c2, m2) :: r =>
    if c <=? m2 then
      let d := m2 - c2 in
      if c <? c1 + d then c else
      if d =? 1 then c - (if Z.land m2 1 =? Z.land c 1 then 1 else 0) else c - d
    else upper_with r c
  end.
Definition entries (ind : list Z) : list (Z * Z * Z) :=
  map (fun i => nth (Z.to_nat i) casemappings (0, 0, 0)) ind.
Definition fold_entries : list (Z * Z * Z) := Eval vm_compute in firstn (Z.to_nat casefold_len) casemappings.
Definition up_entries : list (Z * Z * Z) := Eval vm_compute in entries upcase_ind.
Definition low_entries : list (Z * Z * Z) := Eval vm_compute in entries lowcase_ind.
Definition casefold (c : Z) : Z := fold_with fold_entries c.
Definition tolower (c : Z) : Z := fold_with up_entries c.
Definition toupper (c : Z) : Z := upper_with low_entries c.
(** utf8_prv.h 101-105. *)
Definition isupper (c : Z) : bool := negb (tolower c =? c).
Definition islower (c : Z) : bool := negb (toupper c =? c).

(** utf8_prv.c 127-140 utf8_decode_codepoint: the decoder and the number of bytes. *)
Fixpoint dcp_loop (fuel : nat) (m : list Z) (d : dstate) (start s end_ : Z) : res (dstate * Z) :=
  match fuel with
  | O => Err OutOfFuel
  | S k =>
    let* b := aget m s in
    let* d' := decode d b in
    if fst d' =? 0 then Ok (d', s + 1 - start)
    else if negb (fst d' =? 12) && negb (s + 1 =? end_) then dcp_loop k m d' start (s + 1) end_
    else let n := s + 1 - start in Ok ((0, 0xFFFD), if 2 <? n then n - 1 else 1)
  end.
Definition decode_codepoint (m : list Z) (d : dstate) (s end_ : Z) : res (dstate * Z) :=
  dcp_loop (S (length m)) m d s s end_.
(** The loop over all code points of [s, end): as in cstr_tocase_sv (cstr_prv.c 262-264). *)
Fixpoint decode_all (fuel : nat) (m : list Z) (d : dstate) (s end_ : Z) : res (list Z) :=
  match fuel with
  | O => Err OutOfFuel
  | S k =>
    if s <? end_ then
      let* r := decode_codepoint m d s end_ in
      let* cs := decode_all k m (fst r) (s + snd r) end_ in Ok (snd (fst r) :: cs)
    else Ok []
  end.

(** utf8_prv.c 142-156 utf8_icompare, of the views (m1, p1, n1) and (m2, p2, n2).  [schar]:
    char is signed.  Results are below 2^31, or truncated by the cast ([size] difference). *)
Definition to_char (schar : bool) (b : Z) : Z := if schar && (128 <=? b) then b - 256 else b.
Definition to_int (z : Z) : Z := (z + 2 ^ 31) mod 2 ^ 32 - 2 ^ 31.
Fixpoint icompare_loop (fuel : nat) (schar : bool) (m1 : list Z) (p1 n1 : Z) (m2 : list Z) (p2 n2 : Z)
    (d1 d2 : dstate) (j1 j2 : Z) : res Z :=
  match fuel with
  | O => Err OutOfFuel
  | S k =>
    if (j1 <? n1) && (j2 <? n2) then
      let* b := aget m2 (p2 + j2) in
      if b =? 0 then let* x := aget m1 (p1 + j1) in Ok (to_char schar x) else
      let* r1 := decode_codepoint m1 d1 (p1 + j1) (p1 + n1) in
      let* r2 := decode_codepoint m2 d2 (p2 + j2) (p2 + n2) in
      let c := casefold (snd (fst r1)) - casefold (snd (fst r2)) in
      if negb (c =? 0) then Ok c
      else icompare_loop k schar m1 p1 n1 m2 p2 n2 (fst r1) (fst r2) (j1 + snd r1) (j2 + snd r2)
    else Ok (to_int (n1 - n2))
  end.
Definition icompare (schar : bool) (m1 : list Z) (p1 n1 : Z) (m2 : list Z) (p2 n2 : Z) : res Z :=
  icompare_loop (S (length m1 + length m2)) schar m1 p1 n1 m2 p2 n2 (0, 0) (0, 0) 0 0.
(** utf8_prv.h 123-125 utf8_icmp: both sizes are INTPTR_MAX. *)
Definition icmp (schar : bool) (m1 : list Z) (p1 : Z) (m2 : list Z) (p2 : Z) : res Z :=
  icompare schar m1 p1 (2 ^ 63 - 1) m2 p2 (2 ^ 63 - 1).
