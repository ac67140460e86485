(** Specification of string views by lists of bytes. *)
From Verif Require Import Base Utf8_Spec.
From Verif Require Export View_Model.

(** The view [a] shows the bytes [l]. *)
Definition shows (a : view) (l : list Z) : Prop := holds_at (mem a) (buf a) l /\ size a = zlen l.
(** [pat] occurs in [text] at [i]. *)
Definition occurs (text pat : list Z) (i : Z) : Prop := exists x y, text = x ++ pat ++ y /\ zlen x = i.
(** The position of the first occurrence. *)
Definition first_at (text pat : list Z) (r : option Z) : Prop :=
  match r with
  | Some i => occurs text pat i /\ forall j, occurs text pat j -> i <= j
  | None => forall j, ~ occurs text pat j
  end.
(** [len] bytes from [pos], as many as there are. *)
Definition sub (l : list Z) (pos len : Z) : list Z := firstn (Z.to_nat len) (skipn (Z.to_nat pos) l).
(** Splitting at each first occurrence, from left to right. *)
Inductive splits (sep : list Z) : list Z -> list (list Z) -> Prop :=
| sp_last t : first_at t sep None -> splits sep t [t]
| sp_next t r ts : first_at (t ++ sep ++ r) sep (Some (zlen t)) -> splits sep r ts -> splits sep (t ++ sep ++ r) (t :: ts).
Fixpoint join (sep : list Z) (ts : list (list Z)) : list Z :=
  match ts with
  | [] => []
  | [t] => t
  | t :: r => t ++ sep ++ join sep r
  end.
(** ASCII blanks and control characters. *)
Definition blank (b : Z) : Prop := 0 <= b <= 32.
(** [r] is [l] without the blanks at the start, at the end. *)
Definition trimmed_start (l r : list Z) : Prop :=
  exists a, l = a ++ r /\ Forall blank a /\ match r with [] => True | b :: _ => ~ blank b end.
Definition trimmed_end (l r : list Z) : Prop :=
  exists z, l = r ++ z /\ Forall blank z /\ (forall r' b, r = r' ++ [b] -> ~ blank b).
