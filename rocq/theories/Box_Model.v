(** Model of include/stc/box.h: unique owners.  The heap maps addresses to objects (an identity
    and a value); a box variable is dead (not initialised, or dropped) or holds a pointer. *)
From Verif Require Import Base.

Section Box.
Context {A : Type}.
(** i_keyclone *)
Variable keyclone : A -> A.
Inductive var := Dead | Box (p : Z).
Record state := mks { heap : Z -> option (Z * A); made : Z; gone : list Z; vars : list var; raws : list Z }.
Definition setf {B} (f : Z -> option B) (a : Z) (x : option B) : Z -> option B := fun b => if b =? a then x else f b.
Fixpoint pick {B} (k : nat) (l : list B) : option (B * list B) :=
  match l, k with
  | [], _ => None
  | x :: t, O => Some (x, t)
  | x :: t, S k' => match pick k' t with Some (y, t') => Some (y, x :: t') | None => None end
  end.
Definition set_var (g : state) (i : Z) (v : var) : res state :=
  let* vs := aset (vars g) i v in Ok (mks (heap g) (made g) (gone g) vs (raws g)).
Definition set_raws (g : state) (r : list Z) : state := mks (heap g) (made g) (gone g) (vars g) r.
(** An object of value [x] at the new address [a]. *)
Definition create (g : state) (a : Z) (x : A) : state := mks (setf (heap g) a (Some (made g, x))) (made g + 1) (gone g) (vars g) (raws g).
(** box.h 105-110 _drop: i_keydrop and i_free. *)
Definition drop (g : state) (p : Z) : res state :=
  if p =? 0 then Ok g else
  match heap g p with
  | None => Err UseAfterFree
  | Some (id, _) => Ok (mks (setf (heap g) p None) (made g) (gone g ++ [id]) (vars g) (raws g))
  end.
(** malloc returns the address of no live object. *)
Definition fresh (g : state) (a : Z) : bool := (0 <? a) && match heap g a with None => true | Some _ => false end.

Inductive op :=
| Init (i : Z)                     (* box.h 81-82; also _from_ptr(NULL) *)
| Make (i a : Z) (x : A)           (* 89-93 _make, 98-99 _from *)
| FromPtr (i : Z) (k : nat)        (* 95-96 _from_ptr of the client's k-th object *)
| Clone (i j a : Z)                (* 145-150 i = _clone(j) *)
| Drop (i : Z)                     (* 105-110 *)
| Move (i j : Z)                   (* 113-117 i = _move(&j) *)
| Release (j : Z)                  (* 120-121 *)
| ResetTo (i : Z) (k : nat)        (* 124-127 _reset_to with the client's k-th object *)
| ResetNull (i : Z)                (* 124-127 _reset_to(NULL) *)
| Take (i j : Z)                   (* 130-133 _take(&i, _move(&j)) *)
| Assign (i j : Z)                 (* 136-142 _assign(&i, &j) *)
| New (a : Z) (x : A)              (* the client creates an object *)
| Free (k : nat).                  (* the client destroys its k-th object *)

(** [None]: the operation is not legal here. *)
Definition step (g : state) (o : op) : option (res state) :=
  match o with
  | Init i => match aget (vars g) i with Ok Dead => Some (set_var g i (Box 0)) | _ => None end
  | Make i a x =>
      match aget (vars g) i with
      | Ok Dead => if fresh g a then Some (set_var (create g a x) i (Box a)) else None
      | _ => None
      end
  | FromPtr i k =>
      match aget (vars g) i, pick k (raws g) with
      | Ok Dead, Some (p, r) => Some (set_var (set_raws g r) i (Box p))
      | _, _ => None
      end
  | Clone i j a =>
      match aget (vars g) i, aget (vars g) j with
      | Ok Dead, Ok (Box q) =>
          if q =? 0 then Some (set_var g i (Box q)) else
          if fresh g a then
            Some (match heap g q with
                  | None => Err UseAfterFree
                  | Some (_, x) => set_var (create g a (keyclone x)) i (Box a)
                  end)
          else None
      | _, _ => None
      end
  | Drop i => match aget (vars g) i with Ok (Box p) => Some (let* g1 := drop g p in set_var g1 i Dead) | _ => None end
  | Move i j =>
      match aget (vars g) i, aget (vars g) j with
      | Ok Dead, Ok (Box p) => Some (let* g1 := set_var g j (Box 0) in set_var g1 i (Box p))
      | _, _ => None
      end
  | Release j =>
      match aget (vars g) j with
      | Ok (Box p) => Some (let* g1 := set_var g j (Box 0) in Ok (if p =? 0 then g1 else set_raws g1 (p :: raws g1)))
      | _ => None
      end
  | ResetTo i k =>
      match aget (vars g) i, pick k (raws g) with
      | Ok (Box p), Some (q, r) => Some (let* g1 := drop (set_raws g r) p in set_var g1 i (Box q))
      | _, _ => None
      end
  | ResetNull i => match aget (vars g) i with Ok (Box p) => Some (let* g1 := drop g p in set_var g1 i (Box 0)) | _ => None end
  | Take i j =>
      match aget (vars g) j with
      | Ok (Box q) =>
          match set_var g j (Box 0) with
          | Ok g1 => match aget (vars g1) i with
                     | Ok (Box p) => Some (let* g2 := drop g1 p in set_var g2 i (Box q))
                     | _ => None
                     end
          | Err e => Some (Err e)
          end
      | _ => None
      end
  | Assign i j =>
      match aget (vars g) i, aget (vars g) j with
      | Ok (Box p), Ok (Box q) =>
          if q =? p then Some (Ok g) else
          Some (let* g1 := drop g p in let* g2 := set_var g1 i (Box q) in set_var g2 j (Box 0))
      | _, _ => None
      end
  | New a x => if fresh g a then Some (Ok (set_raws (create g a x) (a :: raws g))) else None
  | Free k => match pick k (raws g) with Some (p, r) => Some (drop (set_raws g r) p) | None => None end
  end.
Fixpoint run (g : state) (l : list op) : option (res state) :=
  match l with
  | [] => Some (Ok g)
  | o :: l' => match step g o with None => None | Some (Err e) => Some (Err e) | Some (Ok g') => run g' l' end
  end.
Definition start (n : nat) : state := mks (fun _ => None) 0 [] (repeat Dead n) [].
End Box.
Arguments state : clear implicits.
Arguments op : clear implicits.
Arguments mks {A}.
