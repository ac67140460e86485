(** Several cstr variables over a heap of character buffers (priv/cstr_prv.h), 64 bit target. *)
From Verif Require Import Base Slots View_Model Cstr_Model.
From Verif Require Cstr_Spec.

(** A variable: not initialised, a short string with its 24 bytes, or a long one with a pointer. *)
Inductive svar : Type := SUninit | SShort (d : slots Z) | SLong (a : Z).
(** The heap maps an address to the long string kept there (size and capacity are in the struct,
    which is the only one that points there), [None]: freed. *)
Record sstate : Type := mks { sheap : list (option cstr); svars : list svar; sleaked : list Z }.

Inductive sop : Type :=
| SInit (i : Z)                      (* x_i = cstr_init() *)
| SFrom (i : Z) (b : list Z)         (* x_i = cstr_from_n(b, n) *)
| SOp (i : Z) (o : Cstr_Spec.op)     (* an edit of x_i *)
| SDrop (i : Z)                      (* cstr_drop(&x_i) *)
| SMove (i j : Z)                    (* x_j = cstr_move(&x_i) *)
| STake (i j : Z)                    (* cstr_take(&x_i, cstr_move(&x_j)) *)
| STakeSelf (i : Z)                  (* cstr_take(&x_i, x_i) *)
| STakeNew (i : Z) (b : list Z)      (* cstr_take(&x_i, cstr_from_n(b, n)) *)
| SReplace (i : Z) (sep rep : list Z) (n : Z) (out : list Z)
                                     (* cstr_replace_sv(&x_i, sep, rep, n); [out]: for the specification *)
| SCase (i k : Z) (cs : list Z)      (* k = 1 cstr_lowercase, 2 cstr_uppercase; [cs]: for the specification *)
| SClone (i j : Z)                   (* x_j = cstr_clone(x_i) *)
| SCopy (i j : Z).                   (* cstr_copy(&x_i, x_j) *)

Section Svar.
(** Whether the first 8 of the 24 bytes of a short string, read as the pointer lon.data, equal
    the address of block [a]; uninitialised bytes may equal anything. *)
Variable looks : Z -> slots Z -> bool.
(** Whether realloc keeps the address. *)
Variable stays : cstr -> cstr -> bool.

Definition block (h : list (option cstr)) (a : Z) : res cstr :=
  let* b := aget h a in match b with Some c => Ok c | None => Err UseAfterFree end.
Definition sload (h : list (option cstr)) (v : svar) : res cstr :=
  match v with SUninit => Err Uninit | SShort d => Ok (Short d) | SLong a => block h a end.
(** cstr_prv.h 55 cstr_l_drop. *)
Definition sfree (h : list (option cstr)) (a : Z) : res (list (option cstr)) :=
  let* _ := block h a in aset h a None.
(** cstr_prv.h 145-148 cstr_drop. *)
Definition sdrop (h : list (option cstr)) (v : svar) : res (list (option cstr)) :=
  match v with SUninit => Err Uninit | SShort _ => Ok h | SLong a => sfree h a end.
(** A new string with a buffer of its own. *)
Definition snew (h : list (option cstr)) (c : cstr) : list (option cstr) * svar :=
  match c with Short d => (h, SShort d) | Long _ _ _ => (h ++ [Some c], SLong (zlen h)) end.
Definition sset (s : sstate) (i : Z) (v : svar) : res sstate :=
  let* vs := aset (svars s) i v in Ok (mks (sheap s) vs (sleaked s)).
(** Variable [i], which was [v], becomes [c']: written in place, reallocated, freed. *)
Definition supdate (s : sstate) (i : Z) (v : svar) (c' : cstr) : res sstate :=
  let* q :=
    match v, c' with
    | SLong a, Long _ _ _ =>
      let* c := block (sheap s) a in
      if stays c c' then let* h := aset (sheap s) a (Some c') in Ok (h, v)
      else let* h := sfree (sheap s) a in Ok (snew h c')
    | _, _ => let* h := sdrop (sheap s) v in Ok (snew h c')
    end in
  let* vs := aset (svars s) i (snd q) in Ok (mks (fst q) vs (sleaked s)).
(** cstr_prv.h 134-138 cstr_move. *)
Definition smove (s : sstate) (i : Z) : res (sstate * svar) :=
  let* v := aget (svars s) i in
  match v with
  | SUninit => Err Uninit
  | _ => let* s1 := match init with Short d => sset s i (SShort d) | _ => Err Uninit end in Ok (s1, v)
  end.
(** cstr_prv.h 127-132 cstr_take: the buffer is freed unless the pointers are equal; the pointer
    of a short string is its first bytes.  A buffer that is not freed though the new string
    does not use it is recorded as leaked. *)
Definition stake (s : sstate) (i : Z) (m : svar) : res sstate :=
  let* v := aget (svars s) i in
  let* s1 :=
    match v, m with
    | SUninit, _ | _, SUninit => Err Uninit
    | SShort _, _ => Ok s
    | SLong a, SLong b => if a =? b then Ok s else let* h := sfree (sheap s) a in Ok (mks h (svars s) (sleaked s))
    | SLong a, SShort d => if looks a d then Ok (mks (sheap s) (svars s) (a :: sleaked s))
                           else let* h := sfree (sheap s) a in Ok (mks h (svars s) (sleaked s))
    end in
  sset s1 i m.
(** cstr_prv.h 350-353 cstr_copy: assign_n from the view of the argument, which is passed by
    value; of a long string the view is its buffer. *)
Definition scopy (s : sstate) (i j : Z) : res sstate :=
  let* v := aget (svars s) i in
  let* w := aget (svars s) j in
  let* c := sload (sheap s) v in
  let* o := sload (sheap s) w in
  let* n := ssize o in
  let* a := match v, w with
            | SLong p, SLong q => if p =? q then Ok (Self 0 n) else let* b := rds (sdata o) 0 n in Ok (Ext b)
            | _, _ => let* b := rds (sdata o) 0 n in Ok (Ext b)
            end in
  let* c' := assign_n c a in supdate s i v c'.

Definition sstep (s : sstate) (o : sop) : res sstate :=
  match o with
  | SInit i => match init with Short d => sset s i (SShort d) | _ => Err Uninit end
  | SFrom i b => let* c := from_n b in let q := snew (sheap s) c in sset (mks (fst q) (svars s) (sleaked s)) i (snd q)
  | SOp i o =>
    let* v := aget (svars s) i in
    let* c := sload (sheap s) v in
    let* c' := Cstr_Spec.step c o in supdate s i v c'
  | SDrop i => let* v := aget (svars s) i in let* h := sdrop (sheap s) v in Ok (mks h (svars s) (sleaked s))
  | SMove i j => let* q := smove s i in sset (fst q) j (snd q)
  | STake i j => let* q := smove s j in stake (fst q) i (snd q)
  | STakeSelf i => let* v := aget (svars s) i in stake s i v
  | STakeNew i b => let* c := from_n b in let q := snew (sheap s) c in stake (mks (fst q) (svars s) (sleaked s)) i (snd q)
  (* cstr_prv.h 395-396 cstr_replace_sv *)
  | SReplace i sep rep n _ =>
    let* v := aget (svars s) i in
    let* c := sload (sheap s) v in
    let* c' := replace_sv c (V sep 0 (zlen sep)) (V rep 0 (zlen rep)) n in
    let q := snew (sheap s) c' in stake (mks (fst q) (svars s) (sleaked s)) i (snd q)
  (* cstr_prv.h 267-271 cstr_lowercase, cstr_uppercase *)
  | SCase i k _ =>
    let* v := aget (svars s) i in
    let* c := sload (sheap s) v in
    let* w := view_of c in
    let* c' := tocase_sv w k in
    let q := snew (sheap s) c' in stake (mks (fst q) (svars s) (sleaked s)) i (snd q)
  | SClone i j =>
    let* v := aget (svars s) i in
    let* c := sload (sheap s) v in
    let* c' := clone c in
    let q := snew (sheap s) c' in sset (mks (fst q) (svars s) (sleaked s)) j (snd q)
  | SCopy i j => scopy s i j
  end.
Fixpoint srun (s : sstate) (ops : list sop) : res sstate :=
  match ops with [] => Ok s | o :: r => let* s1 := sstep s o in srun s1 r end.
Definition sstart (n : nat) : sstate := mks [] (repeat SUninit n) [].
End Svar.

(** With blocks at the addresses [addr] (8 bytes each, in the order of memory): the comparison
    self->lon.data != s.lon.data of cstr_prv.h 128, on a short string with these 8 bytes written. *)
Definition looks_at (addr : Z -> list Z) (p : Z) (d : slots Z) : bool :=
  match rds d 0 8 with Ok w => if list_eq_dec Z.eq_dec w (addr p) then true else false | Err _ => false end.
