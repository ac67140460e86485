(** Model of cbits.h: dynamic and fixed-size bit sets.

    Parameter: [lg] with [_cbits_WB] = 2^lg bits per word (6 for 64-bit, 5 for 32-bit).
    [rz] tells what realloc(p, 0) does: true = frees p and returns NULL (glibc),
    false = returns a zero-size block; the C standard leaves it to the implementation. *)
From Verif Require Import Base Slots.

(** cbits.h 155: the buffer pointer, and the words it points to.  A NULL buffer holds no
    words, so an access through it is out of bounds. *)
Inductive mem : Type := Null | Live (b : slots Z) | Freed.
Record cbits : Type := mkbits { buf : mem; size : Z }.

(** Number of 1 bits: __builtin_popcountll, __popcnt64 (cbits.h 59-75). *)
Fixpoint popc_pos (p : positive) : Z :=
  match p with xH => 1 | xO q => popc_pos q | xI q => 1 + popc_pos q end.
Definition popc (x : Z) : Z := match x with Zpos p => popc_pos p | _ => 0 end.

Section Cbits.
Variable lg : Z.
Variable rz : bool.
(** cbits.h 65-68.  Division truncates, as in C. *)
Definition WB : Z := 2 ^ lg.
Definition ones : Z := 2 ^ WB - 1.
Definition bit (i : Z) : Z := Z.shiftl 1 (Z.land i (WB - 1)).
Definition words (n : Z) : Z := Z.quot (n + (WB - 1)) WB.
Definition wnot (x : Z) : Z := Z.lxor x ones.
(** (uintptr_t)-(int)b, and a word filled by memset with -(int)b. *)
Definition fill (b : bool) : Z := if b then ones else 0.

Definition live (m : mem) : res (slots Z) :=
  match m with Null => Ok [] | Live b => Ok b | Freed => Err UseAfterFree end.

(** cbits.h 77-82: c_popcount without compiler support, in words of WB bits; the constants
    are truncated to the word size. *)
Definition mask (m : Z) : Z := m mod 2 ^ WB.
Definition popc_swar (x : Z) : Z :=
  let x := x - Z.land (Z.shiftr x 1) (mask 0x5555555555555555) in
  let x := Z.land x (mask 0x3333333333333333) + Z.land (Z.shiftr x 2) (mask 0x3333333333333333) in
  let x := Z.land (x + Z.shiftr x 4) (mask 0x0f0f0f0f0f0f0f0f) in
  Z.shiftr (mask (x * mask 0x0101010101010101)) (WB - 8).

(** cbits.h 158 cbits_drop. *)
Definition drop (s : cbits) : res unit := match buf s with Freed => Err UseAfterFree | _ => Ok tt end.

(** memset of [n] words from word [i]. *)
Definition memset (b : slots Z) (i : Z) (v : bool) (n : Z) : res (slots Z) :=
  if n <? 0 then Err OOB else ablit b i (repeat (Some (fill v)) (Z.to_nat n)).

(** for each word, from the last to the first: while (n--) buffer[n] = f(n, buffer[n]). *)
Fixpoint each_word (n : nat) (f : Z -> slots Z -> res Z) (b : slots Z) : res (slots Z) :=
  match n with
  | O => Ok b
  | S k => let* w := f (Z.of_nat k) b in let* b' := wr b (Z.of_nat k) w in each_word k f b'
  end.

(** cbits.h 251-252 set_all. *)
Definition set_all (s : cbits) (v : bool) : res cbits :=
  let* b := live (buf s) in
  let* b' := memset b 0 v (words (size s)) in Ok (mkbits (Live b') (size s)).
(** cbits.h 254-257 set_pattern. *)
Definition set_pattern (s : cbits) (p : Z) : res cbits :=
  let* b := live (buf s) in
  let* b' := each_word (Z.to_nat (words (size s))) (fun _ _ => Ok p) b in Ok (mkbits (Live b') (size s)).

(** i_malloc of [n] words: uninitialised. *)
Definition malloc (n : Z) : mem := Live (repeat None (Z.to_nat n)).
(** cbits.h 209-213 cbits_with_size. *)
Definition with_size (n : Z) (v : bool) : res cbits := set_all (mkbits (malloc (words n)) n) v.
(** cbits.h 215-219 cbits_with_pattern. *)
Definition with_pattern (n p : Z) : res cbits := set_pattern (mkbits (malloc (words n)) n) p.
(** cbits.h 225, 236-246: the fixed-size type of [len] bits. *)
Definition fixed_with_size (len n : Z) (v : bool) : res cbits :=
  if n <=? len then set_all (mkbits (malloc (Z.quot (len - 1) WB + 1)) len) v else Err AssertFail.
Definition fixed_with_pattern (len n p : Z) : res cbits :=
  if n <=? len then set_pattern (mkbits (malloc (Z.quot (len - 1) WB + 1)) len) p else Err AssertFail.

(** cbits.h 203-207 cbits_move: the value, and what is left. *)
Definition null_bits : cbits := mkbits Null 0.
Definition move (s : cbits) : cbits * cbits := (s, null_bits).
(** cbits.h 161-167 cbits_take; [same] is the test self->buffer == other.buffer. *)
Definition take (same : bool) (s other : cbits) : res cbits :=
  if same then Ok s else let* _ := drop s in Ok other.
(** cbits.h 169-173 cbits_clone. *)
Definition clone (o : cbits) : res cbits :=
  let* b := live (buf o) in
  let* ws := aslice b 0 (words (size o)) in Ok (mkbits (Live ws) (size o)).
(** cbits.h 175-182 cbits_copy. *)
Definition copy (same : bool) (s o : cbits) : res cbits :=
  if same then Ok s else
  if negb (size s =? size o) then let* c := clone o in take false s c else
  let* b := live (buf s) in let* ob := live (buf o) in
  let* ws := aslice ob 0 (words (size o)) in
  let* b' := ablit b 0 ws in Ok (mkbits (Live b') (size s)).

(** cbits.h 184-198 cbits_resize; allocation of a positive size succeeds. *)
Definition resize (s : cbits) (n : Z) (v : bool) : res (cbits * bool) :=
  let new_w := words n in let osize := size s in let old_w := words osize in
  match buf s with
  | Freed => Err UseAfterFree
  | m =>
    if rz && (new_w =? 0) && (match m with Null => false | _ => true end)
    then Ok (mkbits Freed osize, false)
    else
      let* b0 := live m in
      let b := realloc b0 new_w in
      if n >? osize then
        let* b1 := memset b old_w v (new_w - old_w) in
        if negb (Z.land osize (WB - 1) =? 0) then
          let m := bit osize - 1 in
          let* w := rd b1 (old_w - 1) in
          let* b2 := wr b1 (old_w - 1) (if v then Z.lor w (wnot m) else Z.land w m) in
          Ok (mkbits (Live b2) n, true)
        else Ok (mkbits (Live b1) n, true)
      else Ok (mkbits (Live b) n, true)
  end.

(** cbits.h 259-263 test, at. *)
Definition test (s : cbits) (i : Z) : res bool :=
  let* b := live (buf s) in
  let* w := rd b (Z.quot i WB) in Ok (negb (Z.land w (bit i) =? 0)).
(** c_uless compares as unsigned. *)
Definition at_ (s : cbits) (i : Z) : res bool :=
  if (0 <=? i) && (i <? size s) then test s i else Err AssertFail.

(** read-modify-write of one word *)
Definition modify (s : cbits) (i : Z) (f : Z -> Z) : res cbits :=
  let* b := live (buf s) in
  let* w := rd b (Z.quot i WB) in
  let* b' := wr b (Z.quot i WB) (f w) in Ok (mkbits (Live b') (size s)).
(** cbits.h 265-276. *)
Definition set (s : cbits) (i : Z) : res cbits := modify s i (fun w => Z.lor w (bit i)).
Definition reset (s : cbits) (i : Z) : res cbits := modify s i (fun w => Z.land w (wnot (bit i))).
Definition set_value (s : cbits) (i : Z) (b : bool) : res cbits :=
  modify s i (fun w => Z.lxor w (Z.land (Z.lxor (fill b) w) (bit i))).
Definition flip (s : cbits) (i : Z) : res cbits := modify s i (fun w => Z.lxor w (bit i)).
(** cbits.h 278-281 flip_all. *)
Definition flip_all (s : cbits) : res cbits :=
  let* b := live (buf s) in
  let* b' := each_word (Z.to_nat (words (size s))) (fun i b => let* w := rd b i in Ok (Z.lxor w ones)) b in
  Ok (mkbits (Live b') (size s)).

(** cbits.h 283-288 from: the bits whose character is '1' (49). *)
Fixpoint from_loop (n : nat) (str : list Z) (s : cbits) : res cbits :=
  match n with
  | O => Ok s
  | S k =>
    let* c := aget str (Z.of_nat k) in
    let* s' := (if c =? 49 then set s (Z.of_nat k) else Ok s) in from_loop k str s'
  end.
Definition from (str : list Z) : res cbits :=
  let* s := with_size (zlen str) false in from_loop (length str) str s.
Definition fixed_from (len : Z) (str : list Z) : res cbits :=
  let* s := fixed_with_size len (zlen str) false in from_loop (length str) str s.

(** cbits.h 291-307 intersect, union, xor: [op] on corresponding words.  [other] may be the
    set itself: then both reads see the same buffer. *)
Definition combine (op : Z -> Z -> Z) (self_arg : bool) (s o : cbits) : res cbits :=
  if negb (size s =? size o) then Err AssertFail else
  let* b := live (buf s) in
  let* ob := live (buf o) in
  let* b' := each_word (Z.to_nat (words (size s)))
    (fun i b => let* w := rd b i in let* x := rd (if self_arg then b else ob) i in Ok (op w x)) b in
  Ok (mkbits (Live b') (size s)).
Definition intersect := combine Z.land.
Definition union := combine Z.lor.
Definition xor := combine Z.lxor.

(** cbits.h 102-110, 309-310 count.  [pc] is the population count used. *)
Fixpoint count_loop (pc : Z -> Z) (n : nat) (i : Z) (b : slots Z) (acc : Z) : res Z :=
  match n with
  | O => Ok acc
  | S k => let* w := rd b i in count_loop pc k (i + 1) b (acc + pc w)
  end.
Definition count (pc : Z -> Z) (s : cbits) : res Z :=
  let* b := live (buf s) in
  let n := Z.quot (size s) WB in
  let* c := count_loop pc (Z.to_nat n) 0 b 0 in
  if negb (Z.land (size s) (WB - 1) =? 0) then
    let* w := rd b n in Ok (c + pc (Z.land w (bit (size s) - 1)))
  else Ok c.

(** cbits.h 112-123, 312-313 to_str, into the caller's buffer [out]. *)
Fixpoint to_str_loop (n : nat) (s : cbits) (out : list Z) (start i : Z) : res (list Z) :=
  match n with
  | O => Ok out
  | S k =>
    let* t := test s i in
    let* out' := (if t then aset out (i - start) 49 else Ok out) in
    to_str_loop k s out' start (i + 1)
  end.
Definition to_str (s : cbits) (out : list Z) (start stop : Z) : res (list Z) :=
  let stop := if stop >? size s then size s else stop in
  if negb (start <=? stop) then Err AssertFail else
  let* out1 := ablit out 0 (repeat 48 (Z.to_nat (stop - start))) in
  let* out2 := to_str_loop (Z.to_nat (stop - start)) s out1 start start in
  aset out2 (stop - start) 0.

(** cbits.h 94-100 print: the characters written; [stop] = -1 stands for the size. *)
Fixpoint print_loop (n : nat) (s : cbits) (i : Z) : res (list Z) :=
  match n with
  | O => Ok []
  | S k => let* t := test s i in let* r := print_loop k s (i + 1) in Ok ((if t then 49 else 48) :: r)
  end.
Definition print (s : cbits) (start stop : Z) : res (list Z) :=
  let stop := if stop =? -1 then size s else stop in
  print_loop (Z.to_nat (stop - start)) s start.

(** cbits.h 125-139: the loop of _cbits_OPR with (OPR, VAL) = (|, set[i]) or (&, 0). *)
Fixpoint opr_loop (bad : Z -> Z -> bool) (n : nat) (i : Z) (b ob : slots Z) : res bool :=
  match n with
  | O => Ok true
  | S k => let* w := rd b i in let* x := rd ob i in
           if bad w x then Ok false else opr_loop bad k (i + 1) b ob
  end.
Definition opr (op : Z -> Z -> Z) (val : Z -> Z) (s o : cbits) : res bool :=
  if negb (size s =? size o) then Err AssertFail else
  let* b := live (buf s) in
  let* ob := live (buf o) in
  let n := Z.quot (size s) WB in
  let* r := opr_loop (fun w x => negb (op w x =? val w)) (Z.to_nat n) 0 b ob in
  if negb r then Ok false else
  if Z.land (size s) (WB - 1) =? 0 then Ok true else
  let m := bit (size s) - 1 in
  let* w := rd b n in let* x := rd ob n in
  Ok (Z.land (op w x) m =? Z.land (val w) m).
(** cbits.h 135-136, 315-318 subset_of; 138-139, 320-323 disjoint. *)
Definition subset_of : cbits -> cbits -> res bool := opr Z.lor (fun w => w).
Definition disjoint : cbits -> cbits -> res bool := opr Z.land (fun _ => 0).

(** ** Histories over several bit sets *)
Inductive op : Type :=
| ONew (r : Z) (n : Z) (v : bool) | OPattern (r : Z) (n p : Z) | OFrom (r : Z) (str : list Z)
| OClone (r q : Z) | OCopy (r q : Z) | OMove (r q : Z) | OResize (r n : Z) (v : bool)
| OSetAll (r : Z) (v : bool) | OSetPattern (r p : Z)
| OSet (r i : Z) | OReset (r i : Z) | OSetValue (r i : Z) (b : bool) | OFlip (r i : Z) | OFlipAll (r : Z)
| OIntersect (r q : Z) | OUnion (r q : Z) | OXor (r q : Z)
| OSize (r : Z) | OTest (r i : Z) | OAt (r i : Z) | OCount (r : Z) | OToStr (r start stop : Z) | OPrint (r start stop : Z)
| ODisjoint (r q : Z).
Inductive out : Type := RUnit | RBool (b : bool) | RInt (z : Z) | RStr (s : list Z).

(** Equality of the buffer pointers of variables r and q: the same variable, or both NULL. *)
Definition same_buf (r q : Z) (s o : cbits) : bool :=
  (r =? q) || match buf s, buf o with Null, Null => true | _, _ => false end.

Definition step (st : list cbits) (o : op) : res (list cbits * out) :=
  let upd r (m : res cbits) := let* c := m in let* st' := aset st r c in Ok (st', RUnit) in
  let get r (k : cbits -> res out) := let* s := aget st r in let* x := k s in Ok (st, x) in
  match o with
  | ONew r n v => let* s := aget st r in upd r (let* c := with_size n v in take false s c)
  | OPattern r n p => let* s := aget st r in upd r (let* c := with_pattern n p in take false s c)
  | OFrom r str => let* s := aget st r in upd r (let* c := from str in take false s c)
  | OClone r q => let* s := aget st r in let* o := aget st q in upd r (let* c := clone o in take false s c)
  | OCopy r q => let* s := aget st r in let* o := aget st q in upd r (copy (same_buf r q s o) s o)
  | OMove r q =>
    let* o := aget st q in
    let* st1 := aset st q (snd (move o)) in
    let* s := aget st1 r in
    let* c := take (same_buf 0 1 s (fst (move o))) s (fst (move o)) in
    let* st2 := aset st1 r c in Ok (st2, RUnit)
  | OResize r n v => let* s := aget st r in let* c := resize s n v in let* st' := aset st r (fst c) in Ok (st', RBool (snd c))
  | OSetAll r v => let* s := aget st r in upd r (set_all s v)
  | OSetPattern r p => let* s := aget st r in upd r (set_pattern s p)
  | OSet r i => let* s := aget st r in upd r (set s i)
  | OReset r i => let* s := aget st r in upd r (reset s i)
  | OSetValue r i b => let* s := aget st r in upd r (set_value s i b)
  | OFlip r i => let* s := aget st r in upd r (flip s i)
  | OFlipAll r => let* s := aget st r in upd r (flip_all s)
  | OIntersect r q => let* s := aget st r in let* o := aget st q in upd r (intersect (r =? q) s o)
  | OUnion r q => let* s := aget st r in let* o := aget st q in upd r (union (r =? q) s o)
  | OXor r q => let* s := aget st r in let* o := aget st q in upd r (xor (r =? q) s o)
  | OSize r => get r (fun s => Ok (RInt (size s)))
  | OTest r i => get r (fun s => let* b := test s i in Ok (RBool b))
  | OAt r i => get r (fun s => let* b := at_ s i in Ok (RBool b))
  | OCount r => get r (fun s => let* c := count popc s in Ok (RInt c))
  | OToStr r a b => get r (fun s => let* t := to_str s (repeat 0 (Z.to_nat (Z.min b (size s) - a + 1))) a b in Ok (RStr t))
  | OPrint r a b => get r (fun s => let* t := print s a b in Ok (RStr t))
  | ODisjoint r q => let* s := aget st r in let* o := aget st q in let* b := disjoint s o in Ok (st, RBool b)
  end.
Fixpoint run (st : list cbits) (h : list op) : res (list cbits * list out) :=
  match h with
  | [] => Ok (st, [])
  | o :: h' => let* r := step st o in let* r2 := run (fst r) h' in Ok (fst r2, snd r :: snd r2)
  end.
End Cbits.
