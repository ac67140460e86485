(** Specification of a growable sequence on mathematical lists. *)
From Verif Require Import Base Vec_Model.

Section VecSpec.
Context {A : Type}.

(** The vec stores the objects [l]: they are the first [size] slots of the buffer. *)
Definition stored (v : vec A) (l : list A) : Prop :=
  size v = zlen l /\ exists unused, buf v = map Some l ++ unused.

(** Result of one operation on a sequence: new sequence, destroyed elements, returned elements. *)
Definition seq_step (l : list A) (o : op A) : list A * (list A * list A) :=
  match o with
  | Push x => (l ++ [x], ([], []))
  | Pop => (removelast l, (skipn (length l - 1) l, []))
  | Pull => (removelast l, ([], skipn (length l - 1) l))
  | InsertN idx xs => (firstn (Z.to_nat idx) l ++ xs ++ skipn (Z.to_nat idx) l, ([], []))
  | EraseN idx n => (firstn (Z.to_nat idx) l ++ skipn (Z.to_nat (idx + n)) l,
                     (firstn (Z.to_nat n) (skipn (Z.to_nat idx) l), []))
  | Resize len null => (firstn (Z.to_nat len) l ++ repeat null (Z.to_nat len - length l),
                        (skipn (Z.to_nat len) l, []))
  | Reserve _ | ShrinkToFit => (l, ([], []))
  | Clear => ([], (rev l, []))
  end.

Fixpoint seq_run (l : list A) (ops : list (op A)) : list A * list (list A * list A) :=
  match ops with
  | [] => (l, [])
  | o :: rest =>
    let r := seq_step l o in
    let r2 := seq_run (fst r) rest in
    (fst r2, snd r :: snd r2)
  end.

(** Arguments in range. *)
Definition legal_op (l : list A) (o : op A) : Prop :=
  match o with
  | Pop | Pull => l <> []
  | InsertN idx _ => 0 <= idx <= zlen l
  | EraseN idx n => 0 <= idx /\ 0 <= n /\ idx + n <= zlen l
  | Resize len _ => 0 <= len
  | Reserve cap => 0 <= cap
  | _ => True
  end.

Fixpoint legal (l : list A) (ops : list (op A)) : Prop :=
  match ops with
  | [] => True
  | o :: rest => legal_op l o /\ legal (fst (seq_step l o)) rest
  end.

(** Elements moved into the vec by an operation on a sequence of length [n]. *)
Definition moved_in (l : list A) (o : op A) : list A :=
  match o with
  | Push x => [x]
  | InsertN _ xs => xs
  | Resize len null => repeat null (Z.to_nat len - length l)
  | _ => []
  end.
Fixpoint moved_in_all (l : list A) (ops : list (op A)) : list A :=
  match ops with
  | [] => []
  | o :: rest => moved_in l o ++ moved_in_all (fst (seq_step l o)) rest
  end.
End VecSpec.
