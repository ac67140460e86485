(** Unique ownership as values: a box variable holds nothing or a value of its own. *)
From Verif Require Import Base Box_Model.

Section Spec.
Context {A : Type}.
Variable keyclone : A -> A.
Inductive avar := ADead | ANull | AVal (x : A).
(** variables and the client's own objects *)
Record astate := mka { avars : list avar; araws : list A }.
Definition aset_var (a : astate) (i : Z) (v : avar) : option astate :=
  match aset (avars a) i v with Ok vs => Some (mka vs (araws a)) | Err _ => None end.
Definition astep (a : astate) (o : op A) : option astate :=
  let get i := aget (avars a) i in
  match o with
  | Init i => match get i with Ok ADead => aset_var a i ANull | _ => None end
  | Make i _ x => match get i with Ok ADead => aset_var a i (AVal x) | _ => None end
  | FromPtr i k => match get i, pick k (araws a) with Ok ADead, Some (x, r) => aset_var (mka (avars a) r) i (AVal x) | _, _ => None end
  | Clone i j _ =>
      match get i, get j with
      | Ok ADead, Ok ANull => aset_var a i ANull
      | Ok ADead, Ok (AVal x) => aset_var a i (AVal (keyclone x))
      | _, _ => None
      end
  | Drop i => match get i with Ok ADead => None | Ok _ => aset_var a i ADead | _ => None end
  | Move i j =>
      match get i, get j with
      | Ok ADead, Ok ADead => None
      | Ok ADead, Ok v => match aset_var a j ANull with Some a1 => aset_var a1 i v | None => None end
      | _, _ => None
      end
  | Release j =>
      match get j with
      | Ok ANull => Some a
      | Ok (AVal x) => match aset_var a j ANull with Some a1 => Some (mka (avars a1) (x :: araws a1)) | None => None end
      | _ => None
      end
  | ResetTo i k =>
      match get i, pick k (araws a) with
      | Ok ADead, _ => None
      | Ok _, Some (x, r) => aset_var (mka (avars a) r) i (AVal x)
      | _, _ => None
      end
  | ResetNull i => match get i with Ok ADead => None | Ok _ => aset_var a i ANull | _ => None end
  | Take i j | Assign i j =>
      match get i, get j with
      | Ok ADead, _ | _, Ok ADead => None
      | Ok _, Ok v => match aset_var a j ANull with Some a1 => aset_var a1 i v | None => None end
      | _, _ => None
      end
  | New _ x => Some (mka (avars a) (x :: araws a))
  | Free k => match pick k (araws a) with Some (_, r) => Some (mka (avars a) r) | None => None end
  end.
Fixpoint arun (a : astate) (l : list (op A)) : option astate :=
  match l with [] => Some a | o :: l' => match astep a o with Some a' => arun a' l' | None => None end end.
Definition astart (n : nat) : astate := mka (repeat ADead n) [].

(** The box variable [v] holds what [av] says. *)
Definition holds (h : Z -> option (Z * A)) (v : var) (av : avar) : Prop :=
  match v, av with
  | Dead, ADead => True
  | Box p, ANull => p = 0
  | Box p, AVal x => p <> 0 /\ exists id, h p = Some (id, x)
  | _, _ => False
  end.
(** Pointers held by the variables. *)
Definition owned (v : var) : list Z := match v with Dead => [] | Box p => if p =? 0 then [] else [p] end.
Definition owners (g : state A) : list Z := flat_map owned (vars g) ++ raws g.
End Spec.
Arguments avar : clear implicits.
Arguments astate : clear implicits.
