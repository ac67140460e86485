(** A finite map whose operations may fail: a failed operation changes nothing. *)
From Verif Require Import Base Hmap_Model Hmap_Spec.

Section OomHmapSpec.
Context {K V : Type}.
Variable hash : K -> Z.
Variable eqb : K -> K -> bool.

Definition may_fail (o : op K V) : bool :=
  match o with
  | Insert _ _ | Emplace _ _ | InsertOrAssign _ _ | EmplaceOrAssign _ _ | Reserve _ | ShrinkToFit => true
  | _ => false
  end.
(** Objects that were handed over to an operation that fails are destroyed. *)
Definition refused (o : op K V) : list (destroyed K V) :=
  match o with Insert k v | InsertOrAssign k v => [DKey k; DVal v] | _ => [] end.

(** From entries [l], each operation either did what it does on a finite map, or failed, its
    memory having been refused: no effect but [refused]. *)
Inductive run_with : list (K * V) -> list (bool * bool * op K V) -> list (K * V) -> list (list (destroyed K V) * bool * bool) -> Prop :=
| rw_nil l : run_with l [] l []
| rw_ok l a o ops l' d outs : Permutation d (snd (fst (map_step eqb l o))) ->
    run_with (fst (fst (map_step eqb l o))) ops l' outs ->
    run_with l ((a, o) :: ops) l' ((d, snd (map_step eqb l o), true) :: outs)
| rw_fail l a o ops l' outs b : may_fail o = true -> fst a && snd a = false -> (o <> ShrinkToFit -> b = false) ->
    run_with l ops l' outs ->
    run_with l ((a, o) :: ops) l' ((refused o, b, false) :: outs).

(** As [legal], whichever operations fail. *)
Fixpoint legal_f (l : list (K * V)) (ops : list (bool * bool * op K V)) : Prop :=
  match ops with
  | [] => True
  | (a, o) :: rest =>
    let l1 := fst (fst (map_step eqb l o)) in
    legal_op l o /\ spread hash l1 /\ legal_f l1 rest /\
    (fst a && snd a = false -> may_fail o = true -> legal_f l rest)
  end.
(** Objects handed over to the map: those of the operations; raw arguments become objects if
    they are stored. *)
Fixpoint given (l : list (K * V)) (ops : list (bool * bool * op K V)) (outs : list (list (destroyed K V) * bool * bool)) : list (destroyed K V) :=
  match ops, outs with
  | (_, o) :: rest, (_, _, ok) :: os =>
    if ok then moved_in eqb l o ++ given (fst (fst (map_step eqb l o))) rest os
    else refused o ++ given l rest os
  | _, _ => []
  end.
End OomHmapSpec.
