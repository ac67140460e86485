(** What a multi-dimensional view is, without reference to the code. *)
From Verif Require Import Base.

(** An index tuple within a shape. *)
Definition in_range (idx shape : list Z) : Prop := Forall2 (fun i n => 0 <= i < n) idx shape.
(** Number of elements. *)
Fixpoint prod (l : list Z) : Z := match l with [] => 1 | n :: t => n * prod t end.
(** Offset of an index tuple under given strides. *)
Fixpoint dot (idx st : list Z) : Z :=
  match idx, st with i :: idx', t :: st' => i * t + dot idx' st' | _, _ => 0 end.
(** Offset in a C array T a[n0][n1]...: the last index varies fastest. *)
Fixpoint row_offset (shape idx : list Z) : Z :=
  match shape, idx with _ :: ns, i :: is => i * prod ns + row_offset ns is | _, _ => 0 end.
(** Offset in a Fortran array: the first index varies fastest. *)
Fixpoint col_offset (shape idx : list Z) : Z :=
  match shape, idx with n :: ns, i :: is => i + n * col_offset ns is | _, _ => 0 end.

(** Lexicographic order of index tuples. *)
Inductive lex : list Z -> list Z -> Prop :=
| lex_here i j a b : i < j -> lex (i :: a) (j :: b)
| lex_next i a b : lex a b -> lex (i :: a) (i :: b).

(** Python-like range arguments of one dimension of a slice:
    [Pick i] (rank is reduced), or the positions a, a+k, ... below b. *)
Inductive dim := Pick (i : Z) | Rng (a b k : Z).
(** The source tuple of element [idx] of a slice. *)
Fixpoint source (ds : list dim) (idx : list Z) : list Z :=
  match ds, idx with
  | Pick i :: ds', _ => i :: source ds' idx
  | Rng a _ k :: ds', j :: idx' => a + j * k :: source ds' idx'
  | _, _ => []
  end.
(** A dimension selection that fits a dimension of [n] elements. *)
Definition fits (d : dim) (n : Z) : Prop :=
  match d with Pick i => 0 <= i < n | Rng a b k => 0 <= a < b /\ b <= n /\ 0 < k end.
(** How many positions: the number of j with a + j*k < b. *)
Definition kept (ds : list dim) (shape : list Z) : Prop :=
  exists sel, sel = concat (map (fun d => match d with Pick _ => [] | Rng a b k => [(a, b, k)] end) ds) /\
  Forall2 (fun r n => let '(a, b, k) := r in 0 < n /\ forall j, 0 <= j -> (j < n <-> a + j * k < b)) sel shape.
(** Documented meaning of the slice argument {a0, a1, a2} on a dimension of [n] elements: {i}
    picks, {a, b} and {a, b, k} select, and the end c_END (2^31-1) stands for [n]. *)
Definition dim_of (n : Z) (a : Z * Z * Z) : dim :=
  let '(a0, a1, a2) := a in
  if a1 =? 0 then Pick a0 else Rng a0 (if a1 =? 2147483647 then n else a1) (if 0 <? a2 then a2 else 1).
Fixpoint dims_of (ns : list Z) (args : list (Z * Z * Z)) : list dim :=
  match ns, args with n :: ns', a :: args' => dim_of n a :: dims_of ns' args' | _, _ => [] end.

(** How cspan_print lays out an array: brackets nested as the dimensions, [op] items [cl].  Items
    that are themselves arrays (of [m] > 0 dimensions) start on a new line, indented, after an
    empty line if m > 1.  [el idx] is the text of the element at [idx]. *)
Fixpoint upto (k : Z) (n : nat) : list Z := match n with O => [] | S n' => k :: upto (k + 1) n' end.
Section Layout.
Context {C : Type}.
Variables (op cl sp nl : C) (comma : list C) (rk : nat) (el : list Z -> list C).
Definition indent (m : nat) : list C := match m with O => [] | _ => repeat sp (rk - m) end.
Definition separator (m : nat) : list C := comma ++ match m with O => [] | S O => [nl] | _ => [nl; nl] end.
Fixpoint text (ns : list Z) (idx : list Z) : list C :=
  match ns with
  | [] => el idx
  | n :: ns' =>
      [op] ++
      concat (map (fun i => (if i =? 0 then [] else indent (length ns')) ++ text ns' (idx ++ [i]) ++
                            (if i =? n - 1 then [] else separator (length ns'))) (upto 0 (Z.to_nat n)))
      ++ [cl]
  end.
End Layout.
