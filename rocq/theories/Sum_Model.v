(** Model of sys/sumtype.h: tagged unions and the statements that tell their variants apart.
    The macros expand to for, switch, case, break and if statements; those statements are given
    first, with the meaning the C standard gives them, and every macro is its expansion.

    Simplified: the preprocessor itself (c_LOOP and c_EVAL, which repeat a macro for every
    variant) is not modelled, a sum type is the list of its variants in order, of any length.
    The two texts of c_when, c_is_2 and c_is_3 (with and without __typeof__) expand to the same
    statements up to casts and are one definition here. *)
From Verif Require Import Base.

Section Sum.
Context {P U R : Type}.   (* payloads, other state of the program, what functions return *)

(** sumtype.h 103-106 union T: the tag common to all members, the member last written, and
    what was written there. *)
Record obj : Type := mkobj { otag : Z; omember : Z; oval : P }.
Record state : Type := mkstate { mem : list obj; user : U }.
(** sumtype.h 114 [&_vp1->Tag.var]: address of a variant and the member pointed into. *)
Definition ptr : Type := Z * Z.

(** How a statement ends. *)
Inductive ctl : Type := CNorm | CBreak | CCont | CRet (r : R).
Definition stmt : Type := state -> res (state * ctl).

(** C statements.  [for (p = init; p; p = NULL) body]; two rounds always do. *)
Fixpoint for_ptr {A} (fuel : nat) (p : option A) (body : A -> stmt) (s : state) : res (state * ctl) :=
  match p with
  | None => Ok (s, CNorm)
  | Some a =>
    match fuel with
    | O => Err OutOfFuel
    | S fuel' =>
      let* r := body a s in
      match snd r with
      | CBreak => Ok (fst r, CNorm)
      | CRet x => Ok (fst r, CRet x)
      | CNorm | CCont => for_ptr fuel' None body (fst r)
      end
    end
  end.
(** The inside of a switch: labels and statements. *)
Inductive item : Type := Case (t : Z) | Default | Stmt (b : stmt).
Fixpoint to_case (t : Z) (l : list item) : option (list item) :=
  match l with
  | [] => None
  | Case t' :: r => if t =? t' then Some r else to_case t r
  | _ :: r => to_case t r
  end.
Fixpoint to_default (l : list item) : option (list item) :=
  match l with
  | [] => None
  | Default :: r => Some r
  | _ :: r => to_default r
  end.
Fixpoint run (l : list item) (s : state) : res (state * ctl) :=
  match l with
  | [] => Ok (s, CNorm)
  | Stmt b :: r =>
    let* q := b s in
    match snd q with CNorm => run r (fst q) | c => Ok (fst q, c) end
  | _ :: r => run r s
  end.
Definition switch (t : Z) (l : list item) (s : state) : res (state * ctl) :=
  let start := match to_case t l with Some r => Some r | None => to_default l end in
  match start with
  | None => Ok (s, CNorm)
  | Some r =>
    let* q := run r s in
    Ok (fst q, match snd q with CBreak => CNorm | c => c end)
  end.
Definition brk : stmt := fun s => Ok (s, CBreak).
Definition skip : stmt := fun s => Ok (s, CNorm).

(** sumtype.h 94-95, 101 enum enum_T: the first tag is 1, each other one more than the one
    before. *)
Fixpoint enum_from (t : Z) (n : nat) : list Z :=
  match n with O => [] | S n' => t :: enum_from (t + 1) n' end.
Definition enum_tags (n : nat) : list Z := enum_from 1 n.
(** sumtype.h 150-151 c_variant. *)
Definition c_variant (t : Z) (v : P) : obj := mkobj t t v.
(** sumtype.h 153-154 c_tag_index. *)
Definition c_tag_index (s : state) (a : Z) : res Z := let* o := aget (mem s) a in Ok (otag o).
(** sumtype.h 156-157 c_holds. *)
Definition c_holds (s : state) (a t : Z) : res bool := let* o := aget (mem s) a in Ok (otag o =? t).
(** Use of the pointer that c_is_2 and c_is_3 give (sumtype.h 113-115): reading a member that is
    not the one last written is an error. *)
Definition deref (s : state) (x : ptr) : res P :=
  let* o := aget (mem s) (fst x) in
  if omember o =? snd x then Ok (oval o) else Err Uninit.
Definition assign (s : state) (x : ptr) (v : P) : res state :=
  let* o := aget (mem s) (fst x) in
  let* m := aset (mem s) (fst x) (mkobj (otag o) (snd x) v) in Ok (mkstate m (user s)).

(** sumtype.h 109-111 c_when (also 123-126). *)
Definition c_when (p : option Z) (body : Z -> list item) : stmt :=
  for_ptr 2 p (fun vp s => let* t := c_tag_index s vp in switch t (body vp) s).
(** sumtype.h 141-142 c_is_1. *)
Definition c_is_1 (t : Z) : list item := [Stmt brk; Case t].
(** sumtype.h 113-115 c_is_2 (also 128-130), with the statement that follows it. *)
Definition c_is_2 (vp t : Z) (body : ptr -> stmt) : list item :=
  [Stmt brk; Case t; Stmt (for_ptr 2 (Some (vp, t)) body)].
(** sumtype.h 144-145 c_or_is. *)
Definition c_or_is (t : Z) : list item := [Stmt skip; Case t].
(** sumtype.h 147-148 c_otherwise. *)
Definition c_otherwise : list item := [Stmt brk; Default].
(** sumtype.h 117-120 if (c_is_3(p, Tag, x)) thn else els (also 132-135 and 138 c_if_is):
    [if (false) ; else for (vp = p; ..) if (c_holds(vp, Tag)) for (x = ..) thn else els]. *)
Definition if_c_is (p : option Z) (t : Z) (thn : ptr -> stmt) (els : stmt) : stmt := fun s =>
  if false then Ok (s, CNorm) else
  for_ptr 2 p (fun vp s =>
    let* b := c_holds s vp t in
    if b then for_ptr 2 (Some (vp, t)) thn s else els s) s.

(** The way c_when is meant to be written (sumtype.h 44-55, docs/algorithm_api.md 170-175): a
    list of arms, each with its own body. *)
Inductive arm : Type :=
| AIs (t : Z) (ors : list Z) (b : stmt)     (* c_is(t) c_or_is(..) .. b *)
| AIsX (t : Z) (b : ptr -> stmt)            (* c_is(t, x) b *)
| AOther (b : stmt).                        (* c_otherwise b *)
Definition arm_items (vp : Z) (a : arm) : list item :=
  match a with
  | AIs t ors b => c_is_1 t ++ flat_map c_or_is ors ++ [Stmt b]
  | AIsX t b => c_is_2 vp t b
  | AOther b => c_otherwise ++ [Stmt b]
  end.
Definition when_arms (p : option Z) (l : list arm) : stmt := c_when p (fun vp => flat_map (arm_items vp) l).
End Sum.
Arguments obj : clear implicits.
Arguments state : clear implicits.
Arguments ctl : clear implicits.
Arguments stmt : clear implicits.
Arguments item : clear implicits.
Arguments arm : clear implicits.
