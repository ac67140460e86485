(** What a statement over the variants of a sum type does, without loops, labels and jumps:
    the arm of the variant is chosen, and its body is run once. *)
From Verif Require Import Base Sum_Model.

Section SumSpec.
Context {P U R : Type}.
Notation stmt := (stmt P U R).
Notation arm := (arm P U R).

(** Does an arm name the tag? *)
Definition names (t : Z) (a : arm) : bool :=
  match a with
  | AIs t' ors _ => existsb (Z.eqb t) (t' :: ors)
  | AIsX t' _ => t =? t'
  | AOther _ => false
  end.
Definition is_other (a : arm) : bool := match a with AOther _ => true | _ => false end.
(** The arm chosen: the one that names the tag, else the otherwise arm, if any. *)
Definition chosen (t : Z) (l : list arm) : option arm :=
  match find (names t) l with Some a => Some a | None => find is_other l end.
(** The body of an arm, [x] being the pointer to the payload of the variant. *)
Definition body_of (x : Z * Z) (a : arm) : stmt :=
  match a with AIs _ _ b => b | AIsX _ b => b x | AOther b => b end.
(** A body is run once; break and continue in it only end it. *)
Definition once (b : stmt) : stmt := fun s =>
  let* r := b s in Ok (fst r, match snd r with CRet x => CRet x | _ => CNorm end).
Definition when_spec (a t : Z) (l : list arm) : stmt := fun s =>
  match chosen t l with
  | Some m => once (body_of (a, t) m) s
  | None => Ok (s, CNorm)
  end.
Definition is_spec (a t t' : Z) (thn : Z * Z -> stmt) (els : stmt) : stmt :=
  once (if t =? t' then thn (a, t) else els).
End SumSpec.
