(** Model of include/c11/fmt.h: _fmt_parse, _fmt_sprint and what fmt_printd passes to printf.
    A C string is the list of its characters without the terminating 0; the output buffer
    [_fs] is a list of slots, and writing outside of it is an error.  printf itself is not
    modelled: its result is a parameter. *)
From Coq Require Import String Ascii.
From Verif Require Import Base Slots.

Definition str := list Z.
(** A string literal. *)
Fixpoint bs (s : string) : str :=
  match s with EmptyString => [] | String a r => Z.of_nat (nat_of_ascii a) :: bs r end.
(** s[k]: the terminator can be read, nothing after it. *)
Definition ch (s : str) (k : Z) : res Z := if k =? zlen s then Ok 0 else aget s k.
Definition chPct := 37. Definition chStar := 42. Definition chDash := 45. Definition chDot := 46.
Definition chColon := 58. Definition chLt := 60. Definition chGt := 62. Definition chAt := 64.
Definition chG := 103. Definition chS := 115. Definition chC := 99. Definition chOpen := 123. Definition chClose := 125.

(** fmt.h 176-197 _fc: the type of an argument, and its code. *)
Inductive ctype := TBool | TUChar | TSChar | TChar | TShort | TUShort | TInt | TUnsigned | TLong | TULong
  | TLLong | TULLong | TFloat | TDouble | TLDouble | TStr | TWStr | TPtr.
Definition fc (t : ctype) : str :=
  match t with
  | TBool => bs "d" | TUChar => bs "hhu" | TSChar => bs "c" | TChar => bs "c" | TShort => bs "hd" | TUShort => bs "hu"
  | TInt => bs "d" | TUnsigned => bs "u" | TLong => bs "ld" | TULong => bs "lu" | TLLong => bs "lld" | TULLong => bs "llu"
  | TFloat => bs "g" | TDouble => bs "@g" | TLDouble => bs "@Lg" | TStr => bs "s" | TWStr => bs "ls" | TPtr => bs "p"
  end.

(** The locals of _fmt_parse: fmt and p as indices, the buffer, n, the arguments not yet fetched. *)
Record st := mk { f : Z; p : Z; b : slots Z; n : Z; args : list str }.

(** *p++ = c *)
Definition put (s : st) (c : Z) : res st :=
  let* b' := wr (b s) (p s) c in Ok (mk (f s) (p s + 1) b' (n s) (args s)).
Fixpoint puts (s : st) (cs : str) : res st :=
  match cs with [] => Ok s | c :: r => let* s1 := put s c in puts s1 r end.
(** fmt += k *)
Definition skipf (s : st) (k : Z) : st := mk (f s + k) (p s) (b s) (n s) (args s).
Definition setn (s : st) (k : Z) : st := mk (f s) (p s) (b s) k (args s).
(** va_arg: fetching more arguments than were passed is an error. *)
Definition va_arg (s : st) : res (st * str) :=
  match args s with [] => Err OOB | a :: r => Ok (mk (f s) (p s) (b s) (n s) r, a) end.

(** fmt.h 259-267: the loop over the modifiers; the state, p0 and arg. *)
Fixpoint mods (fuel : nat) (nargs : Z) (fmt : str) (s : st) (p0 : option Z) (arg : str) : res (st * option Z * str) :=
  match fuel with
  | O => Err OutOfFuel
  | S fuel' =>
    let* c := ch fmt (f s) in
    if c =? 0 then Ok (setn s 99, p0, arg)
    else if c =? chClose then Ok (s, p0, arg)
    else if c =? chLt then let* s1 := put s chDash in mods fuel' nargs fmt (skipf s1 1) p0 arg
    else if c =? chGt then mods fuel' nargs fmt (skipf s 1) None arg
    else if c =? chDash then mods fuel' nargs fmt (skipf s 1) p0 arg
    else if c =? chStar then
      let s1 := setn s (n s + 1) in
      let* sa := if n s1 <=? nargs then va_arg s1 else Ok (s1, arg) in
      let* s2 := put (fst sa) c in mods fuel' nargs fmt (skipf s2 1) p0 (snd sa)
    else let* s1 := put s c in mods fuel' nargs fmt (skipf s1 1) p0 arg
  end.

(** fmt.h 273 strchr(conversions, c) != NULL: also true of the terminator. *)
Definition conv_chars : str := bs "csdioxXufFeEaAgGnp".
Definition in_conv (c : Z) : bool := (c =? 0) || existsb (Z.eqb c) conv_chars.

(** fmt.h 254-278: a field; [s] is after the opening brace, n already counted. *)
Definition field (fuel : nat) (nargs : Z) (fmt : str) (s : st) : res st :=
  let* c := ch fmt (f s) in
  let s1 := if negb (c =? chColon) && negb (c =? chClose) then setn s 99 else s in
  let s2 := skipf s1 (if c =? chColon then 1 else 0) in
  let* c2 := ch fmt (f s2) in
  let empty := c2 =? chClose in
  let* sa := va_arg s2 in
  let* s3 := put (fst sa) chPct in
  let* m := mods fuel nargs fmt s3 (Some (p s3)) (snd sa) in
  let '(s4, p0, arg) := m in
  let a0 := match arg with [] => 0 | a :: _ => a end in
  let* s5 := if a0 =? chG then (if empty then puts s4 (bs ".8") else Ok s4)
             else if a0 =? chAt then (if empty then puts s4 (bs ".16") else Ok s4) else Ok s4 in
  let arg2 := if a0 =? chAt then tl arg else arg in
  let* last := ch fmt (f s5 - 1) in
  let* s6 := if in_conv last then Ok s5 else puts s5 arg2 in
  let* s7 := match p0 with
             | None => Ok s6
             | Some q =>
               let* e := rd (b s6) (p s6 - 1) in
               if (e =? chS) || (e =? chC) then
                 let* b1 := amove (b s6) q (q + 1) (p s6 - q) in
                 let* b2 := wr b1 q chDash in
                 Ok (mk (f s6) (p s6 + 1) b2 (n s6) (args s6))
               else Ok s6
             end in
  let* c3 := ch fmt (f s7) in
  Ok (skipf s7 (if c3 =? chClose then 1 else 0)).

(** fmt.h 242-281: the main loop. *)
Fixpoint loop (fuel : nat) (nargs : Z) (fmt : str) (s : st) : res st :=
  match fuel with
  | O => Err OutOfFuel
  | S fuel' =>
    let* c := ch fmt (f s) in
    let copy s := (let* c' := ch fmt (f s) in let* s1 := put s c' in
                   let s2 := skipf s1 1 in if c =? 0 then Ok s2 else loop fuel' nargs fmt s2) in
    if c =? chPct then let* s1 := put s chPct in copy s1
    else if c =? chClose then
      let s1 := skipf s 1 in
      let* d := ch fmt (f s1) in
      if d =? chClose then copy s1 else loop fuel' nargs fmt (setn s1 99)
    else if c =? chOpen then
      let s1 := skipf s 1 in
      let* d := ch fmt (f s1) in
      if d =? chOpen then copy s1 else
      let s2 := setn s1 (n s1 + 1) in
      if n s2 >? nargs then loop fuel' nargs fmt s2 else
      let* s3 := field fuel' nargs fmt s2 in loop fuel' nargs fmt s3
    else copy s
  end.

(** fmt.h 237-284 _fmt_parse into a buffer of [size] bytes: the buffer, and the result. *)
Definition fmt_parse (size : Z) (fmt : str) (codes : list str) : res (slots Z * Z) :=
  let* s := loop (S (length fmt)) (zlen codes) fmt (mk 0 0 (repeat None (Z.to_nat size)) 0 codes) in
  Ok (b s, n s).

(** The zero-terminated string in a buffer. *)
Fixpoint cstring (s : slots Z) : res str :=
  match s with
  | [] => Err OOB
  | None :: _ => Err Uninit
  | Some c :: r => if c =? 0 then Ok [] else let* t := cstring r in Ok (c :: t)
  end.

(** fmt.h 103-155 fmt_printd with [zlen types] arguments: the format string that reaches
    printf.  Without arguments that is [fmt] itself (116).  A failed fmt_OK is an error. *)
Definition fmt_max := 128.
Definition printd (fmt : str) (types : list ctype) : res str :=
  let* r := fmt_parse fmt_max fmt (map fc types) in
  if negb (snd r =? zlen types) then Err AssertFail else
  match types with [] => Ok fmt | _ => cstring (fst r) end.

(** fmt.h 81-85 fmt_stream; data NULL is [None]. *)
Record stream := mkss { data : option (slots Z); cap : Z; len : Z; overwrite : bool }.
(** fmt.h 216-235 _fmt_sprint with a stream, where printf yields [text]; allocation succeeds
    and printf does not fail.  vsnprintf writes the text and a terminating 0. *)
Definition sprint (ss : stream) (text : str) : res stream :=
  let k := zlen text in
  let pos := if overwrite ss then 0 else len ss in
  let len' := pos + k in
  let '(d, c) := if len' >? cap ss
                 then let c := len' + cap ss / 2 in
                      (Some (realloc (match data ss with Some d => d | None => [] end) (c + 1)), c)
                 else (data ss, cap ss) in
  match d with
  | None => Err NullDeref
  | Some d => let* d' := wrs d pos (text ++ [0]) in Ok (mkss (Some d') c len' (overwrite ss))
  end.
Fixpoint sprints (ss : stream) (texts : list str) : res stream :=
  match texts with [] => Ok ss | t :: r => let* s1 := sprint ss t in sprints s1 r end.
