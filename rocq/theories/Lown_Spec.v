(** Lists as values: a variable holds nothing or a sequence of elements of its own. *)
From Verif Require Import Base Lown_Model.

Section Spec.
Context {A : Type}.
Variable eqb : A -> A -> bool.
Variable keyclone : A -> A.
Notation elem := (@elem A).

(** new elements with the values [xs], numbered from [m] *)
Fixpoint fresh (m : Z) (xs : list A) : list elem :=
  match xs with [] => [] | x :: t => (m, x) :: fresh (m + 1) t end.
Definition ids (l : list elem) : list Z := map fst l.

(** [aseqs]: the variables; [amine]: elements of the client; [anodes]: elements in nodes the client holds;
    [amade]: number of identities given out; [agone]: the identities destroyed so far, in order. *)
Record astate := mka { aseqs : list (option (list elem)); amine : list elem; anodes : list elem; amade : Z; agone : list Z }.
Definition aget_var (a : astate) (i : Z) : option (list elem) :=
  match aget (aseqs a) i with Ok (Some l) => Some l | _ => None end.
Definition adead (a : astate) (i : Z) : bool := match aget (aseqs a) i with Ok None => true | _ => false end.
(** variable [i] becomes [v], the client owns [m] and [n], [d] identities are given out, those in [x] are destroyed *)
Definition achange (a : astate) (i : Z) (v : option (list elem)) (m n : list elem) (d : Z) (x : list elem) : option astate :=
  match aset (aseqs a) i v with Ok q => Some (mka q m n (amade a + d) (agone a ++ ids x)) | Err _ => None end.
(** only the variable changes, and [x] is destroyed *)
Definition aput (a : astate) (i : Z) (l : list elem) (x : list elem) : option astate :=
  achange a i (Some l) (amine a) (anodes a) 0 x.

Definition astep (a : astate) (o : lop A) : option astate :=
  match o with
  | LInit i => if adead a i then aput a i [] [] else None
  | LFromN i xs => if adead a i then achange a i (Some (fresh (amade a) xs)) (amine a) (anodes a) (zlen xs) [] else None
  | LPutN i xs =>
      match aget_var a i with Some l => achange a i (Some (l ++ fresh (amade a) xs)) (amine a) (anodes a) (zlen xs) [] | None => None end
  | LNew x => Some (mka (aseqs a) ((amade a, x) :: amine a) (anodes a) (amade a + 1) (agone a))
  | LFree k => match pick k (amine a) with Some (y, m) => Some (mka (aseqs a) m (anodes a) (amade a) (agone a ++ ids [y])) | None => None end
  | LPush i k =>
      match aget_var a i, pick k (amine a) with
      | Some l, Some (y, m) => achange a i (Some (l ++ [y])) m (anodes a) 0 []
      | _, _ => None
      end
  | LPushFront i k =>
      match aget_var a i, pick k (amine a) with
      | Some l, Some (y, m) => achange a i (Some (y :: l)) m (anodes a) 0 []
      | _, _ => None
      end
  | LInsert i p k =>
      match aget_var a i, pick k (amine a) with
      | Some l, Some (y, m) => if (p <=? length l)%nat then achange a i (Some (firstn p l ++ y :: skipn p l)) m (anodes a) 0 [] else None
      | _, _ => None
      end
  | LEraseAt i p =>
      match aget_var a i with
      | Some l => if (p <? length l)%nat then aput a i (firstn p l ++ skipn (S p) l) (firstn 1 (skipn p l)) else None
      | None => None
      end
  (* a range of an empty list is excluded: see C69 *)
  | LEraseRange i p q =>
      match aget_var a i with
      | Some l => if (p <=? q)%nat && (q <=? length l)%nat && (1 <=? length l)%nat then aput a i (firstn p l ++ skipn q l) (firstn (q - p) (skipn p l)) else None
      | None => None
      end
  | LPopFront i => match aget_var a i with Some (x :: l) => aput a i l [x] | _ => None end
  | LRemove i raw =>
      match aget_var a i with
      | Some l => aput a i (filter (fun e => negb (eqb (snd e) raw)) l) (filter (fun e => eqb (snd e) raw) l)
      | None => None
      end
  | LReverse i => match aget_var a i with Some l => aput a i (rev l) [] | None => None end
  | LClear i => match aget_var a i with Some l => aput a i [] l | None => None end
  | LDrop i => match aget_var a i with Some l => achange a i None (amine a) (anodes a) 0 l | None => None end
  | LMove i j =>
      match aget_var a j with
      | Some l => if adead a i then match aput a j [] [] with Some b => aput b i l [] | None => None end else None
      | None => None
      end
  | LTake i j =>
      match aget_var a i, aget_var a j with
      | Some l0, Some l => if i =? j then Some a else match aput a j [] [] with Some b => aput b i l l0 | None => None end
      | _, _ => None
      end
  | LClone i j =>
      match aget_var a j with
      | Some l => if adead a i then achange a i (Some (fresh (amade a) (map (fun e => keyclone (snd e)) l))) (amine a) (anodes a) (zlen l) [] else None
      | None => None
      end
  | LCopy i j =>
      match aget_var a i, aget_var a j with
      | Some l0, Some l =>
          if i =? j then Some a else achange a i (Some (fresh (amade a) (map (fun e => keyclone (snd e)) l))) (amine a) (anodes a) (zlen l) l0
      | _, _ => None
      end
  | LSplice i p j =>
      match aget_var a i, aget_var a j with
      | Some l, Some l2 =>
          if (i =? j) || negb (p <=? length l)%nat then None else
          match aput a j [] [] with Some b => aput b i (firstn p l ++ l2 ++ skipn p l) [] | None => None end
      | _, _ => None
      end
  | LSplit i j p q =>
      match aget_var a j with
      | Some l =>
          if adead a i && (p <=? q)%nat && (q <=? length l)%nat then
            match aput a j (firstn p l ++ skipn q l) [] with Some b => aput b i (firstn (q - p) (skipn p l)) [] | None => None end
          else None
      | None => None
      end
  | LSpliceRange i p j q r =>
      match aget_var a i, aget_var a j with
      | Some l, Some l2 =>
          if negb (i =? j) && (p <=? length l)%nat && (q <=? r)%nat && (r <=? length l2)%nat then
            match aput a j (firstn q l2 ++ skipn r l2) [] with
            | Some b => aput b i (firstn p l ++ firstn (r - q) (skipn q l2) ++ skipn p l) []
            | None => None
            end
          else None
      | _, _ => None
      end
  | LUnlink i => match aget_var a i with Some (x :: l) => achange a i (Some l) (amine a) (x :: anodes a) 0 [] | _ => None end
  | LPushNode i k =>
      match aget_var a i, pick k (anodes a) with
      | Some l, Some (y, n) => achange a i (Some (l ++ [y])) (amine a) n 0 []
      | _, _ => None
      end
  | LPushFrontNode i k =>
      match aget_var a i, pick k (anodes a) with
      | Some l, Some (y, n) => achange a i (Some (y :: l)) (amine a) n 0 []
      | _, _ => None
      end
  | LFreeNode k => match pick k (anodes a) with Some (y, n) => Some (mka (aseqs a) (amine a) n (amade a) (agone a ++ ids [y])) | None => None end
  end.
Fixpoint arun (a : astate) (l : list (lop A)) : option astate :=
  match l with [] => Some a | o :: l' => match astep a o with Some a' => arun a' l' | None => None end end.
Definition astart (n : nat) : astate := mka (repeat None n) [] [] 0 [].

(** every identity a variable, the client or a node the client holds has *)
Definition held (a : astate) : list Z :=
  flat_map (fun v => match v with Some l => ids l | None => [] end) (aseqs a) ++ ids (amine a) ++ ids (anodes a).
End Spec.
