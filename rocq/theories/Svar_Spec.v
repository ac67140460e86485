(** Specification of several cstr variables: each owns a byte string or nothing. *)
From Verif Require Import Base Utf8_Spec Cstr_Spec Var_Spec Svar_Model.

Implicit Types (l : list (option (list Z))).
Definition text (b : list Z) : Prop := Forall is_byte b /\ zlen b <= max_len.
Definition slegal l (o : sop) : Prop :=
  match o with
  | SInit i => is_var l i /\ owns l i = None
  | SFrom i b => is_var l i /\ owns l i = None /\ text b
  | SOp i o => is_var l i /\ op_bytes o /\ exists a b, owns l i = Some a /\ edits a [o] = Some b /\ text b
  | SDrop i | STakeSelf i => is_var l i /\ owns l i <> None
  | SMove i j => is_var l i /\ is_var l j /\ owns l i <> None /\ (owns l j = None \/ i = j)
  | STake i j => is_var l i /\ is_var l j /\ owns l i <> None /\ owns l j <> None
  | STakeNew i b => is_var l i /\ owns l i <> None /\ text b
  | SReplace i sep rep n out => exists a, owns l i = Some a /\ sep <> [] /\ 0 <= n /\ text out /\
      replaced sep rep (Z.to_nat (if n =? 0 then 2 ^ 31 - 1 else n)) a out
  | SCase i k cs => owns l i = Some (enc_all cs) /\ Forall scalar cs /\ (k = 1 \/ k = 2) /\ text (enc_all (map (case_of k) cs))
  | SClone i j => is_var l i /\ is_var l j /\ owns l i <> None /\ owns l j = None
  | SCopy i j => is_var l i /\ is_var l j /\ owns l i <> None /\ owns l j <> None
  end.
Definition sspec l (o : sop) : list (option (list Z)) :=
  match o with
  | SInit i => give l i (Some [])
  | SFrom i b | STakeNew i b => give l i (Some b)
  | SOp i o => give l i (match owns l i with Some a => edits a [o] | None => None end)
  | SDrop i => give l i None
  | STakeSelf i => l
  | SMove i j => give (give l i (Some [])) j (owns l i)
  | STake i j => give (give l j (Some [])) i (owns l j)
  | SReplace i _ _ _ out => give l i (Some out)
  | SCase i k cs => give l i (Some (enc_all (map (case_of k) cs)))
  | SClone i j => give l j (owns l i)
  | SCopy i j => give l i (owns l j)
  end.
Fixpoint slegal_all l (ops : list sop) : Prop :=
  match ops with [] => True | o :: r => slegal l o /\ slegal_all (sspec l o) r end.
Fixpoint sspec_all l (ops : list sop) : list (option (list Z)) :=
  match ops with [] => l | o :: r => sspec_all (sspec l o) r end.
(** The text of the string that cstr_take puts into a variable; all of them satisfy [P]. *)
Definition taken l (o : sop) : option (list Z) :=
  match o with STake i j => owns l j | STakeNew i b => Some b | SReplace _ _ _ _ out => Some out
  | SCase _ k cs => Some (enc_all (map (case_of k) cs)) | _ => None end.
Fixpoint takes_all (P : list Z -> Prop) l (ops : list sop) : Prop :=
  match ops with [] => True | o :: r => (forall b, taken l o = Some b -> P b) /\ takes_all P (sspec l o) r end.
(** A text whose string is not short, or fills 8 bytes with characters that are not 0. *)
Definition plain (b : list Z) : Prop := 22 < zlen b \/ 8 <= zlen b /\ ~ In 0 b.
(** What holds of the variables and the heap when the variables own [l]: each variable can be
    read and shows its text, no two share a buffer, every buffer that is not freed is that of
    a variable or one of [sleaked]. *)
Record well_owned (s : sstate) (l : list (option (list Z))) : Prop := mkwell {
  w_text : forall i a, owns l i = Some a -> exists v c, aget (svars s) i = Ok v /\ sload (sheap s) v = Ok c /\ repr c a;
  w_apart : forall i j p, owns l i <> None -> owns l j <> None -> aget (svars s) i = Ok (SLong p) -> aget (svars s) j = Ok (SLong p) -> i = j;
  w_live : forall p c, aget (sheap s) p = Ok (Some c) -> In p (sleaked s) \/ exists i, owns l i <> None /\ aget (svars s) i = Ok (SLong p) }.
