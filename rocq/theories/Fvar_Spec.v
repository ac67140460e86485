(** Specification of several variables of a stack type with a fixed capacity: each owns a list,
    or nothing. *)
From Verif Require Import Base Var_Spec Fvar_Model.

Section FvarSpec.
Context {A : Type}.
Variable N : Z.
Implicit Types (l : list (option (list A))).

(** Nothing to lose: no value, or an empty one. *)
Definition vacant l i : Prop := owns l i = None \/ owns l i = Some [].
(** What a program may do.  A variable that was moved from owns nothing: it may only be
    initialised or assigned to. *)
Definition flegal l (o : fop A) : Prop :=
  match o with
  | FInit i => is_var l i /\ vacant l i
  | FPush i _ | FDrop i => is_var l i /\ owns l i <> None
  | FPop i | FPull i => is_var l i /\ exists a, owns l i = Some a /\ a <> []
  | FPutN i xs => is_var l i /\ exists a, owns l i = Some a /\ zlen a + zlen xs <= N
  | FMove i j => is_var l i /\ is_var l j /\ owns l i <> None /\ (vacant l j \/ i = j)
  | FTake i j => is_var l i /\ is_var l j /\ owns l i <> None /\ owns l j <> None /\ i <> j
  end.
Definition val l i : list A := match owns l i with Some a => a | None => [] end.
(** Values afterwards, and the elements that entered the program. *)
Definition fspec l (o : fop A) : list (option (list A)) * list A :=
  match o with
  | FInit i => (give l i (Some []), [])
  | FPush i x => (if zlen (val l i) <? N then give l i (Some (val l i ++ [x])) else l, [x])
  | FPop i | FPull i => (give l i (Some (removelast (val l i))), [])
  | FPutN i xs => (give l i (Some (val l i ++ xs)), xs)
  | FDrop i => (give l i (Some []), [])
  | FMove i j => (give (give l i None) j (owns l i), [])
  | FTake i j => (give (give l j None) i (owns l j), [])
  end.
Fixpoint flegal_all l (ops : list (fop A)) : Prop :=
  match ops with [] => True | o :: r => flegal l o /\ flegal_all (fst (fspec l o)) r end.
Fixpoint fspec_all l (ops : list (fop A)) : list (option (list A)) * list A :=
  match ops with [] => (l, []) | o :: r => let q := fspec l o in let t := fspec_all (fst q) r in (fst t, snd q ++ snd t) end.
(** The elements the caller has: those pulled and those refused, in order. *)
Fixpoint freturned l (ops : list (fop A)) : list A :=
  match ops with
  | [] => []
  | o :: r => match o with
              | FPush i x => if zlen (val l i) <? N then [] else [x]
              | FPull i => skipn (length (val l i) - 1) (val l i)
              | _ => []
              end ++ freturned (fst (fspec l o)) r
  end.
End FvarSpec.
