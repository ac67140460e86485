(** Model of cstr when memory may run out: as Cstr_Model.v, with the outcome [a] of the one
    i_malloc or i_realloc a call may ask for (false: NULL).  [Long [] n c] is a long string
    whose data pointer is NULL. *)
From Verif Require Import Base Slots Cstr_Model.

(** cstr_prv.c 62-82 cstr_reserve: the string, and whether the result is not NULL.  A NULL
    from i_realloc is stored in lon.data (65) together with the new capacity (66); a NULL from
    i_malloc is written to (75). *)
Definition reserve_f (a : bool) (s : cstr) (cap : Z) : res (cstr * bool) :=
  if a then let* r := reserve s cap in Ok (fst r, true) else
  match s with
  | Long d n c =>
    if c <? cap then let* cap := cap_ok cap in Ok (Long [] n cap, false) else Ok (s, true)
  | Short d =>
    let* _ := ssize s in
    if s_cap <? cap then let* _ := cap_ok cap in Err NullDeref else Ok (s, true)
  end.
(** cstr_prv.c 108-119 cstr_append_n of a text outside the string, and whether the result is not NULL. *)
Definition append_n_f (a : bool) (s : cstr) (b : list Z) : res (cstr * bool) :=
  let* n := ssize s in
  if scap s <? n + zlen b then
    let* c := grow n (zlen b) in
    let* r := reserve_f a s c in
    if negb (snd r) then Ok r else
    let* s := append_n s (Ext b) in Ok (s, true)
  else let* s := append_n s (Ext b) in Ok (s, true).
(** cstr_prv.c 102-106 cstr_assign_n. *)
Definition assign_n_f (a : bool) (s : cstr) (b : list Z) : res (cstr * bool) :=
  let* r := reserve_f a s (zlen b) in
  if negb (snd r) then Ok r else let* s := assign_n s (Ext b) in Ok (s, true).
(** cstr_prv.c 84-93 cstr_resize. *)
Definition resize_f (a : bool) (s : cstr) (size value : Z) : res (cstr * bool) :=
  let* n := ssize s in
  if (n <? size) && (scap s <? size) then
    let* r := reserve_f a s size in
    if negb (snd r) then Ok r else let* s := resize s size value in Ok (s, true)
  else let* s := resize s size value in Ok (s, true).
(** cstr_prv.c 143-156 cstr_shrink_to_fit. *)
Definition shrink_to_fit_f (a : bool) (s : cstr) : res cstr :=
  let* n := ssize s in
  if negb a && negb (n =? scap s) && (s_cap <? n) then Ok (Long [] n n) else shrink_to_fit s.
(** cstr_prv.h 100-104 cstr_from_n, cstr_prv.c 51-60 _cstr_init: the text is copied to the
    result of i_malloc, which also gets the final 0. *)
Definition from_n_f (a : bool) (b : list Z) : res cstr :=
  if negb a && (s_cap <? zlen b) then let* _ := cap_ok (zlen b) in Err NullDeref else from_n b.
