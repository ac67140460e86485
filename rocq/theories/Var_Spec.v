(** Specification of several variables of one container type: each variable either owns a value
    or nothing; values are copied, moved and destroyed as a whole. *)
From Verif Require Import Base Var_Model.

Section VarSpec.
Context {A E Op : Type}.    (* values of containers, objects, operations *)
Variable sinit : A.
Variable sstep : A -> Op -> A.
Variable smade : A -> Op -> list E.    (* objects that an operation puts into the container or makes *)
Variable slegal : A -> Op -> Prop.
Variable cloneable : A -> Prop.
Variable cloned : A -> A.
Variable objs : A -> list E.

(** The values owned, [None]: nothing (not initialised, or dropped). *)
Definition owns (l : list (option A)) (i : Z) : option A :=
  match aget l i with Ok o => o | Err _ => None end.
Definition give (l : list (option A)) (i : Z) (o : option A) : list (option A) := upd l (Z.to_nat i) o.
Definition is_var (l : list (option A)) (i : Z) : Prop := 0 <= i < zlen l.

(** What a program may do: use variables that own a value, overwrite only those that do not. *)
Definition vlegal (l : list (option A)) (o : vop Op) : Prop :=
  match o with
  | VInit i => is_var l i /\ owns l i = None
  | VOp i o => is_var l i /\ exists a, owns l i = Some a /\ slegal a o
  | VDrop i => is_var l i /\ owns l i <> None
  | VMove i j => is_var l i /\ is_var l j /\ owns l i <> None /\ (owns l j = None \/ i = j)
  | VTake i j => is_var l i /\ is_var l j /\ owns l i <> None /\ owns l j <> None
  | VClone i j => is_var l i /\ is_var l j /\ owns l j = None /\ exists a, owns l i = Some a /\ cloneable a
  | VCopy i j => is_var l i /\ is_var l j /\ owns l i <> None /\ exists a, owns l j = Some a /\ cloneable a
  end.
(** What the variables own afterwards, and the objects made. *)
Definition vspec (l : list (option A)) (o : vop Op) : list (option A) * list E :=
  match o with
  | VInit i => (give l i (Some sinit), [])
  | VOp i o => match owns l i with Some a => (give l i (Some (sstep a o)), smade a o) | None => (l, []) end
  | VDrop i => (give l i None, [])
  | VMove i j => (give (give l i (Some sinit)) j (owns l i), [])
  | VTake i j => (give (give l j (Some sinit)) i (owns l j), [])
  | VClone i j => match owns l i with Some a => (give l j (Some (cloned a)), objs a) | None => (l, []) end
  | VCopy i j => if i =? j then (l, []) else
      match owns l j with Some a => (give l i (Some (cloned a)), objs a) | None => (l, []) end
  end.
Fixpoint vlegal_all (l : list (option A)) (ops : list (vop Op)) : Prop :=
  match ops with [] => True | o :: r => vlegal l o /\ vlegal_all (fst (vspec l o)) r end.
Fixpoint vspec_all (l : list (option A)) (ops : list (vop Op)) : list (option A) * list E :=
  match ops with
  | [] => (l, [])
  | o :: r => let q := vspec l o in let t := vspec_all (fst q) r in (fst t, snd q ++ snd t)
  end.
(** The objects returned to the caller, in order. *)
Variable sgiven : A -> Op -> list E.
Fixpoint vgiven (l : list (option A)) (ops : list (vop Op)) : list E :=
  match ops with
  | [] => []
  | o :: r =>
    (match o with VOp i o => match owns l i with Some a => sgiven a o | None => [] end | _ => [] end) ++ vgiven (fst (vspec l o)) r
  end.
(** All objects owned. *)
Definition held (l : list (option A)) : list E :=
  flat_map (fun o => match o with Some a => objs a | None => [] end) l.
End VarSpec.

(** A state of the program is sound if every variable that owns a value can be loaded and its
    container represents the value, owners share no block, and every live block has an owner. *)
Definition sound {C A E} (init : C) (rep : C -> A -> Prop) (s : state C E) (l : list (option A)) : Prop :=
  (forall i a, owns l i = Some a -> exists v c, aget (vars s) i = Ok v /\ load init s v = Ok c /\ rep c a) /\
  (forall i j p, owns l i <> None -> owns l j <> None -> aget (vars s) i = Ok (VPtr p) -> aget (vars s) j = Ok (VPtr p) -> i = j) /\
  (forall p c, aget (heap s) p = Ok (Some c) -> exists i, owns l i <> None /\ aget (vars s) i = Ok (VPtr p)).
