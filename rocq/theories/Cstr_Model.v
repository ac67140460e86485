(** Model of cstr (priv/cstr_prv.h, priv/cstr_prv.c), on a 64 bit target.

    A cstr is a union of 24 bytes.  [Short d]: the 24 bytes [d] are the characters, the last
    one is the size.  [Long d size cap]: [d] is the allocated buffer of cap + 1 bytes.  Slots
    may be uninitialised.  The size and flag byte of the short form is really stored in [d]:
    characters written over it change it, and a value from 128 on would make the string long
    (an error here).  [lflag] below justifies the tag of the long form.  Allocation never fails.
    A pointer argument is [Ext b]: bytes outside of the string, or [Self off len]: into the
    string's own data.  A pointer into data that [reserve] moved is an error when used. *)
From Verif Require Import Base Slots Utf8_Model View_Model.

(** cstr_prv.h 38-39 cstr_s_last, cstr_s_cap. *)
Definition s_last : Z := 23.
Definition s_cap : Z := 22.
Inductive cstr := Short (d : slots Z) | Long (d : slots Z) (size cap : Z).
(** cstr_prv.h 44-51: the word ncap; 57 cstr_is_long: bit 7 of the last byte in memory, which
    is the highest byte of a little-endian and the lowest of a big-endian word. *)
Definition ncap_le (cap : Z) : Z := 2 ^ 64 - 1 - cap.
Definition ncap_be (cap : Z) : Z := 2 ^ 64 - 1 - (cap * 256 mod 2 ^ 64 + cap / 2 ^ 56).
Definition lflag (last : Z) : bool := negb (Z.land last 128 =? 0).
Definition cap_le (ncap : Z) : Z := 2 ^ 64 - 1 - ncap.
Definition cap_be (ncap : Z) : Z := 2 ^ 64 - 1 - (ncap * 2 ^ 56 mod 2 ^ 64 + ncap / 256).

Definition sdata (s : cstr) : slots Z := match s with Short d => d | Long d _ _ => d end.
(** Writing through the data pointer. *)
Definition wdata (s : cstr) (d : slots Z) : cstr := match s with Short _ => Short d | Long _ n c => Long d n c end.
(** cstr_prv.h 87-90 cstr_getbuf, 91-98 cstr_zv, cstr_sv, 167-168 cstr_size, 173-174
    cstr_capacity: size and capacity. *)
Definition ssize (s : cstr) : res Z :=
  match s with
  | Short d => let* v := rd d s_last in if 128 <=? v then Err Uninit else Ok v
  | Long _ n _ => Ok n
  end.
Definition scap (s : cstr) : Z := match s with Short _ => s_cap | Long _ _ c => c end.
(** cstr_prv.h 41 cstr_s_set_size, 53 cstr_l_set_size, 152-153 _cstr_set_size. *)
Definition set_size (s : cstr) (len : Z) : res cstr :=
  let* _ := ssize s in
  match s with
  | Short d => let* d := wr d len 0 in let* d := wr d s_last len in Ok (Short d)
  | Long d _ c => let* d := wr d len 0 in Ok (Long d len c)
  end.
(** cstr_prv.h 63 cstr_init(). *)
Definition init : cstr := Short (repeat (Some 0) 24).
(** cstr_prv.c 51-60 _cstr_init. *)
Definition malloc (n : Z) : slots Z := repeat None (Z.to_nat n).
Definition cap_ok (cap : Z) : res Z := if (0 <=? cap) && (cap <? 2 ^ 63 - 1) then Ok cap else Err Overflow.
Definition cstr_init (len cap : Z) : res cstr :=
  if s_cap <? cap then
    let* cap := cap_ok cap in
    let* d := wr (malloc (cap + 1)) len 0 in Ok (Long d len cap)
  else let* d := wr (malloc 24) len 0 in let* d := wr d s_last len in Ok (Short d).
(** cstr_prv.h 100-104 cstr_from_n (106-113 from, from_sv, from_zv). *)
Definition from_n (b : list Z) : res cstr :=
  let* s := cstr_init (zlen b) (zlen b) in
  let* d := wrs (sdata s) 0 b in Ok (wdata s d).
(** cstr_prv.h 115-119 cstr_with_size, 121-125 cstr_with_capacity. *)
Definition with_size (n v : Z) : res cstr :=
  let* s := cstr_init n n in
  let* d := wrs (sdata s) 0 (repeat v (Z.to_nat n)) in Ok (wdata s d).
Definition with_capacity (cap : Z) : res cstr := cstr_init 0 cap.
(** cstr_prv.h 140-143 cstr_clone. *)
Definition clone (s : cstr) : res cstr :=
  let* n := ssize s in let* b := rds (sdata s) 0 n in from_n b.
(** cstr_prv.h 155-156 cstr_clear. *)
Definition clear (s : cstr) : res cstr := set_size s 0.
(** cstr_prv.c 62-82 cstr_reserve: the string, and whether its data moved. *)
Definition reserve (s : cstr) (cap : Z) : res (cstr * bool) :=
  match s with
  | Long d n c => if c <? cap then let* cap := cap_ok cap in Ok (Long (realloc d (cap + 1)) n cap, true) else Ok (s, false)
  | Short d =>
    let* len := ssize s in
    if s_cap <? cap then
      let* cap := cap_ok cap in
      let* t := aslice d 0 24 in
      let* d' := ablit (malloc (cap + 1)) 0 t in
      Ok (Long d' len cap, true)
    else Ok (s, false)
  end.
(** b.size*3/2 + extra in isize arithmetic. *)
Definition grow (size extra : Z) : res Z :=
  if (size * 3 <=? imax) && (size * 3 / 2 + extra <=? imax) then Ok (size * 3 / 2 + extra) else Err Overflow.

(** Pointer arguments. *)
Inductive src := Ext (b : list Z) | Self (off len : Z).
Definition slen (a : src) : Z := match a with Ext b => zlen b | Self _ n => n end.
(** The bytes of the argument; [moved]: the data it may point to has been moved. *)
Definition fetch (d : slots Z) (moved : bool) (a : src) : res (list Z) :=
  match a with
  | Ext b => Ok b
  | Self off n => if moved then (if n =? 0 then Ok [] else Err UseAfterFree) else rds d off n
  end.
(** memcpy of the argument to [dst]: the regions must not overlap. *)
Definition copy_in (d : slots Z) (dst : Z) (moved : bool) (a : src) : res (slots Z) :=
  let* b := fetch d moved a in
  match a with
  | Self off n => if (off <? dst + n) && (dst <? off + n) && negb moved && negb (n =? 0) then Err Overlap else wrs d dst b
  | Ext _ => wrs d dst b
  end.

(** cstr_prv.c 39-49 _cstr_internal_move: the string, and whether its data moved. *)
Definition internal_move (s : cstr) (pos1 pos2 : Z) : res (cstr * bool) :=
  let* n := ssize s in
  if pos1 =? pos2 then Ok (s, false) else
  let newlen := n + pos2 - pos1 in
  let* r := if scap s <? newlen then let* c := grow n (pos2 - pos1) in reserve s c else Ok (s, false) in
  let s := fst r in
  let* d := amove (sdata s) pos1 pos2 (n - pos1) in
  let* s := set_size (wdata s d) newlen in
  Ok (s, snd r).
(** cstr_prv.c 84-93 cstr_resize. *)
Definition resize (s : cstr) (size value : Z) : res cstr :=
  let* n := ssize s in
  let* s := if n <? size then
              let* r := if scap s <? size then reserve s size else Ok (s, false) in
              let* d := wrs (sdata (fst r)) n (repeat value (Z.to_nat (size - n))) in Ok (wdata (fst r) d)
            else Ok s in
  set_size s size.
(** cstr_prv.c 102-106 cstr_assign_n; cstr_prv.h 344-353 assign, assign_sv, copy.  memmove. *)
Definition assign_n (s : cstr) (a : src) : res cstr :=
  let* r := reserve s (slen a) in
  let* s := set_size (fst r) (slen a) in
  let* b := fetch (sdata s) (snd r) a in
  let* d := wrs (sdata s) 0 b in Ok (wdata s d).
(** cstr_prv.c 108-119 cstr_append_n; cstr_prv.h 366-373 append, append_sv, append_s. *)
Definition append_n (s : cstr) (a : src) : res cstr :=
  let* n := ssize s in
  let* r := if scap s <? n + slen a then let* c := grow n (slen a) in reserve s c else Ok (s, false) in
  let s := fst r in
  (* 114: a pointer into the moved data is adjusted when off <= size *)
  let moved := snd r && negb (match a with Self off _ => (0 <=? off) && (off <=? n) | Ext _ => false end) in
  let* d := copy_in (sdata s) n moved a in
  set_size (wdata s d) (n + slen a).
(** cstr_prv.h 356-357 cstr_push. *)
Definition push (s : cstr) (m : list Z) (p : Z) : res cstr :=
  let* k := chr_size m p in let* b := aslice m p k in append_n s (Ext b).
(** cstr_prv.h 359-364 cstr_pop. *)
Fixpoint pop_loop (fuel : nat) (d : slots Z) (p : Z) : res Z :=
  match fuel with
  | O => Err OutOfFuel
  | S k => let* b := rd d (p - 1) in if is_cont b then pop_loop k d (p - 1) else Ok (p - 1)
  end.
Definition pop (s : cstr) : res cstr :=
  let* n := ssize s in
  let* p := pop_loop (S (Z.to_nat n)) (sdata s) n in set_size s p.
(** cstr_prv.h 405-408 cstr_replace_at_sv (409-410 replace_at); 418-422 insert_sv, insert. *)
Definition replace_at (s : cstr) (pos len : Z) (a : src) : res cstr :=
  let* r := internal_move s (pos + len) (pos + slen a) in
  let* d := copy_in (sdata (fst r)) pos (snd r) a in Ok (wdata (fst r) d).
Definition insert (s : cstr) (pos : Z) (a : src) : res cstr := replace_at s pos 0 a.
(** cstr_prv.c 136-141 cstr_erase. *)
Definition erase (s : cstr) (pos len : Z) : res cstr :=
  let* n := ssize s in
  let len := if n - pos <? len then n - pos else len in
  let* d := amove (sdata s) (pos + len) pos (n - (pos + len)) in
  set_size (wdata s d) (n - len).
(** cstr_prv.c 143-156 cstr_shrink_to_fit.  The union is overwritten by the copy to sml. *)
Definition shrink_to_fit (s : cstr) : res cstr :=
  let* n := ssize s in
  if n =? scap s then Ok s
  else if s_cap <? n then
    match s with
    | Long d _ c => let* cap := cap_ok n in Ok (Long (realloc d (n + 1)) n cap)
    | Short _ => Err Uninit
    end
  else if s_cap <? scap s then
    let* t := aslice (sdata s) 0 (n + 1) in
    let* d := ablit (malloc 24) 0 t in
    let* d := wr d n 0 in let* d := wr d s_last n in Ok (Short d)
  else Ok s.
(** cstr_prv.c 165-171 cstr_append_uninit: the string; the caller then fills the bytes from
    the old size on. *)
Definition append_uninit (s : cstr) (len : Z) : res cstr :=
  let* n := ssize s in
  let* r := if scap s <? n + len then let* c := grow n len in reserve s c else Ok (s, false) in
  set_size (fst r) (n + len).
(** cstr_prv.c 173-192 cstr_getdelim: reading from the rest [io] of a stream. *)
Fixpoint getdelim_loop (fuel : nat) (s : cstr) (cap pos : Z) (delim : Z) (c : Z) (io : list Z) : res (cstr * list Z) :=
  match fuel with
  | O => Err OutOfFuel
  | S k =>
    if c =? delim then let* s := set_size s pos in Ok (s, io)
    else
      let* r := if pos =? cap then
                  let* s := set_size s pos in
                  let* c2 := grow cap 16 in
                  let* r := reserve s c2 in Ok (fst r, c2)
                else Ok (s, cap) in
      let* d := wr (sdata (fst r)) pos c in
      let s := wdata (fst r) d in
      match io with
      | [] => let* s := set_size s (pos + 1) in Ok (s, [])
      | c' :: io' => getdelim_loop k s (snd r) (pos + 1) delim c' io'
      end
  end.
Definition getdelim (s : cstr) (delim : Z) (io : list Z) : res (cstr * list Z * bool) :=
  match io with
  | [] => Ok (s, [], false)
  | c :: io' =>
    let* _ := ssize s in
    let* r := getdelim_loop (S (length io)) s (scap s) 0 delim c io' in Ok (fst r, snd r, true)
  end.
(** cstr_prv.c 194-202 cstr_vfmt; [out]: the bytes that vsnprintf produces.  from_fmt 204-211
    (start 0 on an empty string), append_fmt 213-219 (start = size), printf 222-228 (start 0). *)
Definition vfmt (s : cstr) (start : Z) (out : list Z) : res cstr :=
  let* r := reserve s (start + zlen out) in
  let* d := wrs (sdata (fst r)) start (out ++ [0]) in
  set_size (wdata (fst r) d) (start + zlen out).
Definition append_fmt (s : cstr) (out : list Z) : res cstr := let* n := ssize s in vfmt s n out.

(** cstr_prv.c 121-134 cstr_from_replace. *)
Fixpoint replace_loop (fuel : nat) (out : cstr) (i search : view) (repl : list Z) (from count : Z) : res (cstr * Z) :=
  match fuel with
  | O => Err OutOfFuel
  | S k =>
    if count =? 0 then Ok (out, from) else
    let* r := strnstrn (mem i) (buf i + from) (size i - from) (mem search) (buf search) (size search) in
    match r with
    | None => Ok (out, from)
    | Some q =>
      let pos := q - buf i in
      let* b := aslice (mem i) (buf i + from) (pos - from) in
      let* out := append_n out (Ext b) in
      let* out := append_n out (Ext repl) in
      replace_loop k out i search repl (pos + size search) (count - 1)
    end
  end.
Definition from_replace (i search repl : view) (count : Z) : res cstr :=
  let count := if count =? 0 then 2 ^ 31 - 1 else count in
  let* rb := aslice (mem repl) (buf repl) (size repl) in
  let* r := if size search =? 0 then Ok (init, 0) else replace_loop (S (Z.to_nat (size i))) init i search rb 0 count in
  let* b := aslice (mem i) (buf i + snd r) (size i - snd r) in
  append_n (fst r) (Ext b).
(** The bytes that can be read from the start of the data: up to the first uninitialised one. *)
Fixpoint bytes_of (d : slots Z) : list Z := match d with Some b :: r => b :: bytes_of r | _ => [] end.
Definition view_of (s : cstr) : res view := let* n := ssize s in Ok (V (bytes_of (sdata s)) 0 n).
(** cstr_prv.h 395-403 cstr_replace_sv, replace_nfirst, replace. *)
Definition replace_sv (s : cstr) (search repl : view) (count : Z) : res cstr :=
  let* v := view_of s in from_replace v search repl count.
(** cstr_prv.h 385-388 cstr_join_n, 389-392 cstr_join_sn. *)
Fixpoint join_loop (s : cstr) (cur sep : list Z) (arr : list (list Z)) : res cstr :=
  match arr with
  | [] => Ok s
  | b :: arr => let* s := append_n s (Ext cur) in let* s := append_n s (Ext b) in join_loop s sep sep arr
  end.
Definition join_n (s : cstr) (sep : list Z) (arr : list (list Z)) : res cstr :=
  let* n := ssize s in join_loop s (if n =? 0 then [] else sep) sep arr.

(** cstr_prv.c 238-243 cstr_u8_erase. *)
Definition u8_erase (s : cstr) (u8pos u8len : Z) : res cstr :=
  let* n := ssize s in
  let* r := u8subview (bytes_of (sdata s)) 0 u8pos u8len in
  let* d := amove (sdata s) (fst r + snd r) (fst r) (n - snd r - fst r) in
  set_size (wdata s d) (n - snd r).
(** cstr_prv.h 412-415 cstr_u8_replace, 424-425 cstr_u8_insert. *)
Definition u8_replace (s : cstr) (u8pos u8len : Z) (b : list Z) : res cstr :=
  let* r := u8subview (bytes_of (sdata s)) 0 u8pos u8len in replace_at s (fst r) (snd r) (Ext b).
Definition u8_insert (s : cstr) (u8pos : Z) (b : list Z) : res cstr :=
  let* p := to_index (bytes_of (sdata s)) 0 u8pos in insert s p (Ext b).
(** cstr_prv.c 260-281 cstr_tocase_sv; 248-258 the table: k = 0 casefold, 1 tolower, 2 toupper. *)
Definition to_lower (c : Z) : Z := if (65 <=? c) && (c <=? 90) then c + 32 else c.
Definition to_upper (c : Z) : Z := if (97 <=? c) && (c <=? 122) then c - 32 else c.
Definition conv (k c : Z) : Z :=
  if c <? 128 then (if k =? 2 then to_upper c else to_lower c)
  else if k =? 0 then casefold c else if k =? 1 then tolower c else toupper c.
Definition put (d : slots Z) (sz k c : Z) : res (slots Z * Z) :=
  if c <? 128 then let* d := wr d sz (conv k c) in Ok (d, sz + 1)
  else let b := encode (conv k c) in let* d := wrs d sz b in Ok (d, sz + zlen b).
Fixpoint tocase_loop (fuel : nat) (d : slots Z) (sz k : Z) (m : list Z) (st : Z * Z) (p end_ : Z) : res (slots Z * Z) :=
  match fuel with
  | O => Err OutOfFuel
  | S f =>
    if p <? end_ then
      let* r := decode_codepoint m st p end_ in
      let* o := put d sz k (snd (fst r)) in
      tocase_loop f (fst o) (snd o) k m (fst r) (p + snd r) end_
    else Ok (d, sz)
  end.
Definition tocase_sv (v : view) (k : Z) : res cstr :=
  let* r := reserve init (size v * 3 / 2) in
  let* o := tocase_loop (S (Z.to_nat (size v))) (sdata (fst r)) 0 k (mem v) (0, 0) (buf v) (buf v + size v) in
  let* s := set_size (wdata (fst r) (fst o)) (snd o) in
  shrink_to_fit s.

(** cstr_prv.c 95-100 cstr_find_at; None for c_NPOS. *)
Definition find_at (s : cstr) (pos : Z) (sm : list Z) (q : Z) : res (option Z) :=
  let* v := view_of s in
  if size v <? pos then Ok None else strstr (mem v) pos sm q.
(** cstr_prv.h 329-333 cstr_starts_with. *)
Fixpoint starts_loop (fuel : nat) (m : list Z) (p : Z) (sm : list Z) (q : Z) : res bool :=
  match fuel with
  | O => Err OutOfFuel
  | S k =>
    let* b := aget sm q in
    if b =? 0 then Ok true else
    let* a := aget m p in
    if a =? b then starts_loop k m (p + 1) sm (q + 1) else Ok false
  end.
Definition starts_with (s : cstr) (sm : list Z) (q : Z) : res bool := starts_loop (S (length sm)) (bytes_of (sdata s)) 0 sm q.
