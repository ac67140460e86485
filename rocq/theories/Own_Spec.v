(** Containers as values: a variable holds nothing or a list of elements of its own. *)
From Verif Require Import Base Slots Own_Model.

Section Spec.
Context {A : Type}.
Variable keyclone : A -> A.
Notation elem := (@elem A).

(** the identities in a list of elements *)
Definition ids (l : list elem) : list Z :=
  flat_map (fun e => match fst e with Some i => [i] | None => [] end) l.
(** new elements with the values [xs], numbered from [m]; copies of [l], numbered from [m] *)
Fixpoint fresh (m : Z) (xs : list A) : list elem :=
  match xs with [] => [] | x :: t => (Some m, x) :: fresh (m + 1) t end.
Fixpoint copies (m : Z) (l : list elem) : list elem :=
  match l with
  | [] => []
  | (Some _, x) :: t => (Some m, keyclone x) :: copies (m + 1) t
  | (None, x) :: t => (None, keyclone x) :: copies m t
  end.

(** [aseqs]: the variables; [amine]: the client's elements; [amade]: number of identities given out;
    [agone]: the identities destroyed so far, in order. *)
Record astate := mka { aseqs : list (option (list elem)); amine : list elem; amade : Z; agone : list Z }.
Definition aset_var (a : astate) (i : Z) (v : option (list elem)) : option astate :=
  match aset (aseqs a) i v with Ok vs => Some (mka vs (amine a) (amade a) (agone a)) | Err _ => None end.
Definition afree (a : astate) (i : Z) (f : list elem) (d : Z) : option astate :=
  match aget (aseqs a) i with
  | Ok None => match aset_var a i (Some f) with Some b => Some (mka (aseqs b) (amine b) (amade b + d) (agone b)) | None => None end
  | _ => None
  end.
(** variable [i] becomes [l'], [d] identities are given out, those in [x] are destroyed *)
Definition achange (a : astate) (i : Z) (l' : list elem) (d : Z) (x : list Z) : option astate :=
  match aset_var a i (Some l') with Some b => Some (mka (aseqs b) (amine b) (amade b + d) (agone b ++ x)) | None => None end.
Definition aget_var (a : astate) (i : Z) : option (list elem) :=
  match aget (aseqs a) i with Ok (Some l) => Some l | _ => None end.
Definition last_of (l : list elem) : option (list elem * elem) :=
  match rev l with [] => None | x :: t => Some (rev t, x) end.

Definition astep (k : kind) (a : astate) (o : op A) : option astate :=
  let m := amade a in
  match o with
  | Init i => afree a i [] 0
  | WithCapacity i n => if 0 <=? n then afree a i [] 0 else None
  | WithSize i n x => if 0 <=? n then afree a i (repeat (None, x) (Z.to_nat n)) 0 else None
  | FromN i xs => afree a i (fresh m xs) (zlen xs)
  | New x => Some (mka (aseqs a) ((Some m, x) :: amine a) (m + 1) (agone a))
  | Free n => match pick n (amine a) with Some (y, r) => Some (mka (aseqs a) r m (agone a ++ ids [y])) | None => None end
  | Push i n =>
      match aget_var a i, pick n (amine a) with
      | Some l, Some (y, r) => achange (mka (aseqs a) r m (agone a)) i (l ++ [y]) 0 []
      | _, _ => None
      end
  | PutN i xs => match aget_var a i with Some l => achange a i (l ++ fresh m xs) (zlen xs) [] | None => None end
  | Pop i =>
      match aget_var a i with
      | Some l => match last_of l with Some (l', y) => achange a i l' 0 (ids [y]) | None => None end
      | None => None
      end
  | Pull i =>
      match aget_var a i with
      | Some l => match last_of l with Some (l', y) => achange (mka (aseqs a) (y :: amine a) m (agone a)) i l' 0 [] | None => None end
      | None => None
      end
  | EraseN i idx n =>
      match k, aget_var a i with
      | KVec, Some l =>
          if (0 <=? idx) && (0 <=? n) && (idx + n <=? zlen l) then
            achange a i (firstn (Z.to_nat idx) l ++ skipn (Z.to_nat (idx + n)) l) 0
                        (ids (firstn (Z.to_nat n) (skipn (Z.to_nat idx) l)))
          else None
      | _, _ => None
      end
  | Resize i n x =>
      match k, aget_var a i with
      | KVec, Some l =>
          if 0 <=? n then
            achange a i (firstn (Z.to_nat n) l ++ repeat (None, x) (Z.to_nat (n - zlen l))) 0 (ids (skipn (Z.to_nat n) l))
          else None
      | _, _ => None
      end
  | Clear i => match aget_var a i with Some l => achange a i [] 0 (ids (rev l)) | None => None end
  | Drop i =>
      match aget_var a i with
      | Some l => match achange a i [] 0 (ids (rev l)) with Some b => aset_var b i None | None => None end
      | None => None
      end
  | Move i j =>
      match aget (aseqs a) i, aget_var a j with
      | Ok None, Some l => match achange a j [] 0 [] with Some b => aset_var b i (Some l) | None => None end
      | _, _ => None
      end
  | Take i j =>
      match aget_var a i, aget_var a j with
      | Some l0, Some l =>
          if i =? j then Some a
          else match achange a j [] 0 [] with Some b => achange b i l 0 (ids (rev l0)) | None => None end
      | _, _ => None
      end
  | Clone i j => match aget_var a j with Some l => afree a i (copies m l) (zlen (ids l)) | None => None end
  | Copy i j =>
      match aget_var a i, aget_var a j with
      | Some l0, Some l => if i =? j then Some a else achange a i (copies m l) (zlen (ids l)) (ids (rev l0))
      | _, _ => None
      end
  | Reserve i n => match aget_var a i with Some _ => if 0 <=? n then Some a else None | None => None end
  | Shrink i => match aget_var a i with Some _ => Some a | None => None end
  end.
Fixpoint arun (k : kind) (a : astate) (l : list (op A)) : option astate :=
  match l with [] => Some a | o :: l' => match astep k a o with Some a' => arun k a' l' | None => None end end.
Definition astart (n : nat) : astate := mka (repeat None n) [] 0 [].

(** every identity a variable or the client holds *)
Definition held (a : astate) : list Z :=
  flat_map (fun v => match v with Some l => ids l | None => [] end) (aseqs a) ++ ids (amine a).
(** the identities given out so far *)
Definition given (a : astate) : list Z := map Z.of_nat (seq 0 (Z.to_nat (amade a))).

(** The container [c] holds [l] in a block of its own of [cap c] slots, or has no block. *)
Definition stores (h : list (Z * slots elem)) (c : cont) (l : list elem) : Prop :=
  size c = zlen l /\
  (data c = 0 /\ cap c = 0 /\ l = [] \/
   exists b, look h (data c) = Some b /\ zlen b = cap c /\ holds b l).
End Spec.
