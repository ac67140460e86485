(** Specification of several cbits variables: each owns a list of bits or nothing. *)
From Verif Require Import Base Cbits_Model Cbits_Spec Var_Spec Bvar_Model.

Implicit Types (l : list (option (list bool))).
(** Changes of register 0 alone, and of register 0 by register 1. *)
Definition changes (o : op) : bool :=
  match o with OResize 0 _ _ | OSetAll 0 _ | OSetPattern 0 _ | OSet 0 _ | OReset 0 _ | OSetValue 0 _ _ | OFlip 0 _ | OFlipAll 0
  | OIntersect 0 0 | OUnion 0 0 | OXor 0 0 => true | _ => false end.
Definition combines (o : op) : bool :=
  match o with OIntersect 0 1 | OUnion 0 1 | OXor 0 1 => true | _ => false end.
Definition after (lg : Z) (rz : bool) (S : list (list bool)) (o : op) : option (list bool) :=
  match Cbits_Spec.sstep lg rz S o with Some (b :: _, _) => Some b | _ => None end.
Definition bits_of l (i : Z) : list bool := match owns l i with Some a => a | None => [] end.
Definition blegal (lg : Z) (rz : bool) l (o : bop) : Prop :=
  match o with
  | BZero i => is_var l i /\ owns l i = None
  | BNew i n b => is_var l i /\ owns l i = None /\ 0 <= n
  | BOp i o => owns l i <> None /\ changes o = true /\ after lg rz [bits_of l i] o <> None
  | BBin i j o => owns l i <> None /\ owns l j <> None /\ i <> j /\ combines o = true /\ after lg rz [bits_of l i; bits_of l j] o <> None
  | BDrop i | BTakeSelf i => owns l i <> None
  | BMove i j => is_var l j /\ owns l i <> None /\ (owns l j = None \/ i = j)
  | BTake i j => owns l i <> None /\ owns l j <> None
  | BTakeNew i n b => owns l i <> None /\ 0 <= n
  | BClone i j => is_var l j /\ owns l i <> None /\ owns l j = None
  | BCopy i j => owns l i <> None /\ owns l j <> None
  end.
Definition bspec (lg : Z) (rz : bool) l (o : bop) : list (option (list bool)) :=
  match o with
  | BZero i => give l i (Some [])
  | BNew i n b | BTakeNew i n b => give l i (Some (repeat b (Z.to_nat n)))
  | BOp i o => give l i (after lg rz [bits_of l i] o)
  | BBin i j o => give l i (after lg rz [bits_of l i; bits_of l j] o)
  | BDrop i => give l i None
  | BTakeSelf i => l
  | BMove i j => give (give l i (Some [])) j (owns l i)
  | BTake i j => give (give l j (Some [])) i (owns l j)
  | BClone i j => give l j (owns l i)
  | BCopy i j => give l i (owns l j)
  end.
Fixpoint blegal_all lg rz l (ops : list bop) : Prop :=
  match ops with [] => True | o :: r => blegal lg rz l o /\ blegal_all lg rz (bspec lg rz l o) r end.
Fixpoint bspec_all lg rz l (ops : list bop) : list (option (list bool)) :=
  match ops with [] => l | o :: r => bspec_all lg rz (bspec lg rz l o) r end.
(** Each variable can be read and has its bits, no two share a buffer, every buffer that is not
    freed is that of a variable. *)
Record bowned (lg : Z) (s : bstate) (l : list (option (list bool))) : Prop := mkbowned {
  bo_bits : forall i a, owns l i = Some a -> exists v c, aget (bvars s) i = Ok v /\ bload (bheap s) v = Ok c /\ bits_repr lg c a;
  bo_apart : forall i j p, owns l i <> None -> owns l j <> None -> aget (bvars s) i = Ok (BPtr p) -> aget (bvars s) j = Ok (BPtr p) -> i = j;
  bo_live : forall p c, aget (bheap s) p = Ok (Some c) -> exists i, owns l i <> None /\ aget (bvars s) i = Ok (BPtr p) }.
