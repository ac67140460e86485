(** Several cbits variables over a heap of buffers (cbits.h, dynamic size). *)
From Verif Require Import Base Slots Cbits_Model.

(** A variable: not initialised, {NULL, 0}, or with a buffer.  The heap maps an address to the
    bit set whose words are there (its size is in the only struct that points there), [None]: freed. *)
Inductive bvar : Type := BUninit | BNull | BPtr (p : Z).
Record bstate : Type := mkb { bheap : list (option cbits); bvars : list bvar }.

Inductive bop : Type :=
| BZero (i : Z)                      (* cbits x_i = {0} *)
| BNew (i n : Z) (b : bool)          (* x_i = cbits_with_size(n, b) *)
| BOp (i : Z) (o : op)               (* a change of x_i, as register 0 *)
| BBin (i j : Z) (o : op)            (* a change of x_i (register 0) by x_j (register 1) *)
| BDrop (i : Z)                      (* cbits_drop(&x_i) *)
| BMove (i j : Z)                    (* x_j = cbits_move(&x_i) *)
| BTake (i j : Z)                    (* cbits_take(&x_i, cbits_move(&x_j)) *)
| BTakeSelf (i : Z)                  (* cbits_take(&x_i, x_i) *)
| BTakeNew (i n : Z) (b : bool)      (* cbits_take(&x_i, cbits_with_size(n, b)) *)
| BClone (i j : Z)                   (* x_j = cbits_clone(x_i) *)
| BCopy (i j : Z).                   (* cbits_copy(&x_i, &x_j) *)

Section Bvar.
Variable lg : Z.
Variable rz : bool.
(** Whether the change is made in the buffer, and whether realloc keeps the address. *)
Variable stays : cbits -> cbits -> bool.

Definition bblock (h : list (option cbits)) (p : Z) : res cbits :=
  let* b := aget h p in match b with Some c => Ok c | None => Err UseAfterFree end.
Definition bload (h : list (option cbits)) (v : bvar) : res cbits :=
  match v with BUninit => Err Uninit | BNull => Ok null_bits | BPtr p => bblock h p end.
Definition bfree (h : list (option cbits)) (p : Z) : res (list (option cbits)) :=
  let* _ := bblock h p in aset h p None.
(** cbits.h 158 cbits_drop: free, which does nothing for NULL. *)
Definition bdrop (h : list (option cbits)) (v : bvar) : res (list (option cbits)) :=
  match v with BUninit => Err Uninit | BNull => Ok h | BPtr p => bfree h p end.
(** A new bit set with a buffer of its own. *)
Definition bnew (h : list (option cbits)) (c : cbits) : list (option cbits) * bvar :=
  match buf c with Null => (h, BNull) | _ => (h ++ [Some c], BPtr (zlen h)) end.
Definition bset (s : bstate) (i : Z) (v : bvar) : res bstate :=
  let* vs := aset (bvars s) i v in Ok (mkb (bheap s) vs).
(** Variable [i], which was [v], becomes [c']: in place, or in another buffer. *)
Definition bupdate (s : bstate) (i : Z) (v : bvar) (c' : cbits) : res bstate :=
  match v with
  | BUninit => Err Uninit
  | BNull => let q := bnew (bheap s) c' in bset (mkb (fst q) (bvars s)) i (snd q)
  | BPtr p =>
    let* c := bblock (bheap s) p in
    if stays c c' then let* h := aset (bheap s) p (Some c') in Ok (mkb h (bvars s))
    else let* h := bfree (bheap s) p in let q := bnew h c' in bset (mkb (fst q) (bvars s)) i (snd q)
  end.
(** The comparison of the buffer pointers. *)
Definition bsame (v w : bvar) : bool :=
  match v, w with BNull, BNull => true | BPtr p, BPtr q => p =? q | _, _ => false end.
(** cbits.h 203-207 cbits_move. *)
Definition bmove (s : bstate) (i : Z) : res (bstate * bvar) :=
  let* v := aget (bvars s) i in
  match v with BUninit => Err Uninit | _ => let* s1 := bset s i BNull in Ok (s1, v) end.
(** cbits.h 161-167 cbits_take. *)
Definition btake (s : bstate) (i : Z) (m : bvar) : res bstate :=
  let* v := aget (bvars s) i in
  if bsame v m then Ok s else
  let* h := bdrop (bheap s) v in bset (mkb h (bvars s)) i m.
(** cbits.h 175-182 cbits_copy. *)
Definition bcopy (s : bstate) (i j : Z) : res bstate :=
  let* v := aget (bvars s) i in
  let* w := aget (bvars s) j in
  let* c := bload (bheap s) v in
  let* o := bload (bheap s) w in
  if bsame v w then Ok s else
  if negb (size c =? size o) then
    let* c' := clone lg o in let q := bnew (bheap s) c' in btake (mkb (fst q) (bvars s)) i (snd q)
  else
    let* c' := copy lg false c o in
    match v with BPtr p => let* h := aset (bheap s) p (Some c') in Ok (mkb h (bvars s)) | _ => Ok s end.

Definition bstep (s : bstate) (o : bop) : res bstate :=
  match o with
  | BZero i => bset s i BNull
  | BNew i n b => let* c := with_size lg n b in let q := bnew (bheap s) c in bset (mkb (fst q) (bvars s)) i (snd q)
  | BOp i o =>
    let* v := aget (bvars s) i in
    let* c := bload (bheap s) v in
    let* r := step lg rz [c] o in
    let* c' := aget (fst r) 0 in bupdate s i v c'
  | BBin i j o =>
    let* v := aget (bvars s) i in
    let* w := aget (bvars s) j in
    let* c := bload (bheap s) v in
    let* d := bload (bheap s) w in
    let* r := step lg rz [c; d] o in
    let* c' := aget (fst r) 0 in bupdate s i v c'
  | BDrop i => let* v := aget (bvars s) i in let* h := bdrop (bheap s) v in Ok (mkb h (bvars s))
  | BMove i j => let* q := bmove s i in bset (fst q) j (snd q)
  | BTake i j => let* q := bmove s j in btake (fst q) i (snd q)
  | BTakeSelf i => let* v := aget (bvars s) i in match v with BUninit => Err Uninit | _ => btake s i v end
  | BTakeNew i n b => let* c := with_size lg n b in let q := bnew (bheap s) c in btake (mkb (fst q) (bvars s)) i (snd q)
  (* cbits.h 169-173 cbits_clone *)
  | BClone i j =>
    let* v := aget (bvars s) i in
    let* c := bload (bheap s) v in
    let* c' := clone lg c in
    let q := bnew (bheap s) c' in bset (mkb (fst q) (bvars s)) j (snd q)
  | BCopy i j => bcopy s i j
  end.
Fixpoint brun (s : bstate) (ops : list bop) : res bstate :=
  match ops with [] => Ok s | o :: r => let* s1 := bstep s o in brun s1 r end.
Definition bstart (n : nat) : bstate := mkb [] (repeat BUninit n).
End Bvar.
