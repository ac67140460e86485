(** Model of cregex_replace: priv/cregex_prv.c 1233-1337, cregex.h 145-162.

    The text is the memory [m] of Regex_Model, the template the memory [rep] (both arrays of
    bytes, a char pointer is an index); the strings subst and out are those of Cstr_Model.
    transform is a function of the group and its text that gives the new text, or [None] where
    it returns false; NULL is the function that always does.  (The string it writes to is
    simplified to the bytes it holds afterwards.) *)
From Verif Require Import Base Slots Utf8_Model View_Model Cstr_Model Regex_Model.

Section Sub.
Variable tr : Z -> list Z -> option (list Z).
Variable m : list Z.
Variable rep : list Z.
Definition is_digit (b : Z) : bool := (48 <=? b) && (b <=? 57).
(** The bytes of a csview; nothing is read when it is empty. *)
Definition view_bytes (v : option Z * Z) : res (list Z) :=
  if snd v <=? 0 then Ok [] else match fst v with Some b => aslice m b (snd v) | None => Err NullDeref end.
(** 1251-1252, 1261-1262: more room, the new capacity; 1253-1254, 1263: writing at [len].  The
    counter of the loop in 1253 is an int. *)
Definition put (s : cstr) (len cap extra : Z) (full : bool) (b : list Z) : res (cstr * Z) :=
  let* r := if full then let c := cap + (cap / 2 + extra) in let* r := reserve s c in Ok (fst r, c) else Ok (s, cap) in
  if 2 ^ 31 <=? zlen b then Err Overflow else
  let* d := wrs (sdata (fst r)) len b in Ok (wdata (fst r) d, snd r).
(** 1241-1269 the loop and the end of _build_substitution, at the template position [p]. *)
Fixpoint build_loop (fuel : nat) (nmatch : Z) (mt : se) (p : Z) (s : cstr) (len cap : Z) : res cstr :=
  match fuel with
  | O => Err OutOfFuel
  | S k =>
    let* c := aget rep p in
    if c =? 0 then set_size s len else
    let* arg := (if c =? 36 then aget rep (p + 1) else Ok 0) in
    if is_digit arg then
      let* b2 := aget rep (p + 2) in
      let* two := (if is_digit b2 then let* b3 := aget rep (p + 3) in Ok (b3 =? 59) else Ok false) in
      let arg := if two then (arg - 48) * 10 + (b2 - 48) else arg - 48 in
      let p := if two then p + 4 else p + 2 in
      if arg <? nmatch then
        let* v := aget mt arg in
        let* own := view_bytes v in
        let b := match tr arg own with Some t => t | None => own end in
        let* r := put s len cap (zlen b) (cap <? len + zlen b) b in
        build_loop k nmatch mt p (fst r) (len + zlen b) (snd r)
      else build_loop k nmatch mt p s len cap
    else
      let p := if arg =? 36 then p + 1 else p in
      let* c := aget rep p in
      let* r := put s len cap 4 (len =? cap) [c] in
      build_loop k nmatch mt (p + 1) (fst r) (len + 1) (snd r)
  end.
(** 1233-1270 _build_substitution, from the template at [q]. *)
Definition build (q nmatch : Z) (mt : se) (subst : cstr) : res cstr :=
  let* _ := ssize subst in build_loop (S (length rep)) nmatch mt q subst 0 (scap subst).

Variable runematch : Z -> Z -> res bool.
Variable isword : Z -> bool.
Variable pr : prog.
Variable q : Z.
Variable copy : bool.
(** 1315-1324: the loop of cregex_replace_pro.  Result: out, and what is left of the input. *)
Fixpoint replace_loop (fuel : nat) (out subst : cstr) (mt : se) (buf size count : Z) : res (cstr * (Z * Z)) :=
  match fuel with
  | O => Err OutOfFuel
  | S k =>
    if count =? 0 then Ok (out, (buf, size)) else
    if count <=? - 2 ^ 31 then Err Overflow else
    let* x := match_sv runematch isword pr m buf size mt in
    if negb (fst x =? 0) then Ok (out, (buf, size)) else
    match snd x with
    | None => Err NullDeref
    | Some mt =>
      let* subst := build q (Z.of_nat (S (nsub pr))) mt subst in
      let* v := aget mt 0 in
      match fst v with
      | None => Err NullDeref
      | Some b0 =>
        let mpos := b0 - buf in
        let* out := (if copy && (0 <? mpos) then let* b := aslice m buf mpos in append_n out (Ext b) else Ok out) in
        let* n := ssize subst in
        let* b := rds (sdata subst) 0 n in
        let* out := append_n out (Ext b) in
        replace_loop k out subst mt (b0 + snd v) (size - (mpos + snd v)) (count - 1)
      end
    end
  end.
(** 1307-1328 cregex_replace_pro; [copy]: CREG_STRIP is not set.  What match[] holds at first is
    not used. *)
Definition replace_pro (fuel : nat) (buf size count : Z) : res cstr :=
  let* r := replace_loop fuel init init (repeat (None, 0) 32) buf size count in
  if copy then let* b := aslice m (fst (snd r)) (snd (snd r)) in append_n (fst r) (Ext b) else Ok (fst r).
End Sub.
(** cregex.h 149-152 cregex_replace. *)
Definition replace runematch isword pr m input rep q (fuel : nat) : res cstr :=
  let* n := strlen m input in
  replace_pro (fun _ _ => None) m rep runematch isword pr q true fuel input n (2 ^ 31 - 1).
