(** Specification of bit sets: lists of booleans. *)
From Verif Require Import Base Slots Cbits_Model.

(** The words [ws] of 2^lg bits represent the bit list [l]: bit i is bit (i mod WB) of word
    (i / WB).  Bits of the last word beyond the size are free. *)
Definition bit_of (lg : Z) (ws : list Z) (i : Z) : bool :=
  Z.testbit (nth (Z.to_nat (i / 2 ^ lg)) ws 0) (i mod 2 ^ lg).
Definition bits_repr (lg : Z) (s : cbits) (l : list bool) : Prop :=
  exists ws, (buf s = Live (map Some ws) \/ buf s = Null /\ ws = []) /\
    size s = zlen l /\
    zlen ws = (zlen l + 2 ^ lg - 1) / 2 ^ lg /\
    Forall (fun w => 0 <= w < 2 ^ 2 ^ lg) ws /\
    forall i, 0 <= i < zlen l -> aget l i = Ok (bit_of lg ws i).

Fixpoint zip {A B C} (f : A -> B -> C) (l : list A) (m : list B) : list C :=
  match l, m with x :: l', y :: m' => f x y :: zip f l' m' | _, _ => [] end.
Definition ones_in (l : list bool) : Z := zlen (filter (fun b => b) l).
Definition char_of (b : bool) : Z := if b then 49 else 48.
(** bits a..b-1 *)
Definition slice {A} (l : list A) (a b : Z) : list A := firstn (Z.to_nat (b - a)) (skipn (Z.to_nat a) l).
(** [n] bits of the repeated word [p] *)
Definition pattern (lg : Z) (n p : Z) : list bool :=
  map (fun k => Z.testbit p (Z.of_nat k mod 2 ^ lg)) (seq 0 (Z.to_nat n)).

Definition sub_set (l m : list bool) : bool := forallb (fun b => b) (zip implb l m).
Definition disj (l m : list bool) : bool := forallb negb (zip andb l m).

(** One operation on variables holding bit lists; [None] outside the documented use. *)
Definition sget (S : list (list bool)) (r : Z) : option (list bool) :=
  match aget S r with Ok l => Some l | Err _ => None end.
Definition sput (S : list (list bool)) (r : Z) (l : list bool) : list (list bool) := upd S (Z.to_nat r) l.
Definition guard (b : bool) {A} (x : option A) : option A := if b then x else None.
Definition sstep (lg : Z) (rz : bool) (S : list (list bool)) (o : op) : option (list (list bool) * out) :=
  let on r (k : list bool -> option (list bool)) :=
    match sget S r with Some l => match k l with Some l' => Some (sput S r l', RUnit) | None => None end | None => None end in
  let on2 r q (k : list bool -> list bool -> option (list bool)) :=
    match sget S q with Some m => on r (fun l => k l m) | None => None end in
  let obs r (k : list bool -> option out) :=
    match sget S r with Some l => match k l with Some x => Some (S, x) | None => None end | None => None end in
  let inb i l := (0 <=? i) && (i <? zlen l) in
  match o with
  | ONew r n v => guard (0 <=? n) (on r (fun _ => Some (repeat v (Z.to_nat n))))
  | OPattern r n p => guard ((0 <=? n) && (0 <=? p) && (p <? 2 ^ 2 ^ lg)) (on r (fun _ => Some (pattern lg n p)))
  | OFrom r str => on r (fun _ => Some (map (fun c => c =? 49) str))
  | OClone r q | OCopy r q => on2 r q (fun _ m => Some m)
  | OMove r q =>
    match sget S q with
    | Some m => match sget S r with Some _ => Some (sput (sput S q []) r m, RUnit) | None => None end
    | None => None
    end
  | OResize r n v =>
    guard ((0 <? n) || negb rz && (0 <=? n))
      match on r (fun l => Some (firstn (Z.to_nat n) l ++ repeat v (Z.to_nat n - length l))) with
      | Some (S', _) => Some (S', RBool true) | None => None end
  | OSetAll r v => on r (fun l => Some (map (fun _ => v) l))
  | OSetPattern r p => guard ((0 <=? p) && (p <? 2 ^ 2 ^ lg)) (on r (fun l => Some (pattern lg (zlen l) p)))
  | OSet r i => on r (fun l => guard (inb i l) (Some (upd l (Z.to_nat i) true)))
  | OReset r i => on r (fun l => guard (inb i l) (Some (upd l (Z.to_nat i) false)))
  | OSetValue r i b => on r (fun l => guard (inb i l) (Some (upd l (Z.to_nat i) b)))
  | OFlip r i => on r (fun l => guard (inb i l) (Some (upd l (Z.to_nat i) (negb (nth (Z.to_nat i) l false)))))
  | OFlipAll r => on r (fun l => Some (map negb l))
  | OIntersect r q => on2 r q (fun l m => guard (zlen l =? zlen m) (Some (zip andb l m)))
  | OUnion r q => on2 r q (fun l m => guard (zlen l =? zlen m) (Some (zip orb l m)))
  | OXor r q => on2 r q (fun l m => guard (zlen l =? zlen m) (Some (zip xorb l m)))
  | OSize r => obs r (fun l => Some (RInt (zlen l)))
  | OTest r i | OAt r i => obs r (fun l => guard (inb i l) (Some (RBool (nth (Z.to_nat i) l false))))
  | OCount r => obs r (fun l => Some (RInt (ones_in l)))
  | OToStr r a b => obs r (fun l => guard ((0 <=? a) && (a <=? Z.min b (zlen l))) (Some (RStr (map char_of (slice l a (Z.min b (zlen l))) ++ [0]))))
  | OPrint r a b =>
    obs r (fun l => let b := if b =? -1 then zlen l else b in
                    guard ((0 <=? a) && (b <=? zlen l)) (Some (RStr (map char_of (slice l a b)))))
  | ODisjoint r q =>
    match sget S q with
    | Some m => obs r (fun l => guard (zlen l =? zlen m) (Some (RBool (disj l m))))
    | None => None
    end
  end.
Fixpoint srun (lg : Z) (rz : bool) (S : list (list bool)) (h : list op) : option (list (list bool) * list out) :=
  match h with
  | [] => Some (S, [])
  | o :: h' =>
    match sstep lg rz S o with
    | Some (S1, x) => match srun lg rz S1 h' with Some (S2, xs) => Some (S2, x :: xs) | None => None end
    | None => None
    end
  end.
