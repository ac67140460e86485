(** What cregex_replace should do: templates, and a text with its matches replaced. *)
From Verif Require Import Base Utf8_Tab Utf8_Model Utf8_Spec Regex_Model Regex_Spec.

(** A template: $d and $dd; stand for the text of a group, $$ for a dollar sign. *)
Definition digit (b : Z) : bool := (48 <=? b) && (b <=? 57).
Fixpoint expand (g : Z -> list Z) (t : list Z) : list Z :=
  match t with
  | [] => []
  | c :: r =>
    if negb (c =? 36) then c :: expand g r else
    match r with
    | [] => [c]
    | a :: r1 =>
      if digit a then
        match r1 with
        | b :: x :: r2 => if digit b && (x =? 59) then g ((a - 48) * 10 + (b - 48)) ++ expand g r2 else g (a - 48) ++ expand g r1
        | _ => g (a - 48) ++ expand g r1
        end
      else if a =? 36 then c :: expand g r1 else c :: expand g r
    end
  end.
(** The text of a group: that of its span, or what the transform makes of it; no group, no text. *)
Definition span_text (m : list Z) (v : option Z * Z) : list Z :=
  match fst v with Some b => firstn (Z.to_nat (snd v)) (skipn (Z.to_nat b) m) | None => [] end.
Definition group (tr : Z -> list Z -> option (list Z)) (m : list Z) (ms : nat) (e : se) (k : Z) : list Z :=
  if k <? Z.of_nat ms then
    let own := span_text m (nth (Z.to_nat k) e (None, 0)) in
    match tr k own with Some t => t | None => own end
  else [].

(** [acc cs i j]: the pattern matches from [i] to [j] in the text [cs].  [caps]: the groups of
    such a match, [quit]: where the matcher gives up. *)
Section Replaced.
Variable acc : list Z -> nat -> nat -> Prop.
Variable caps : Z -> list Z -> nat -> nat -> se -> Prop.
Variable quit : Z -> Prop.
Variable sub : se -> list Z.
Variable copy : bool.
Definition leftmost_longest (cs : list Z) (i j : nat) : Prop :=
  acc cs i j /\ forall i' j', acc cs i' j' -> (i < i')%nat \/ i' = i /\ (j' <= j)%nat.
Definition keep (l : list Z) : list Z := if copy then l else [].
(** The text [cs] at [bol] with its first [n] matches replaced: the leftmost longest one, and
    then those of the rest of the text, taken as a text of its own. *)
Inductive replaced : Z -> list Z -> Z -> list Z -> Prop :=
| rep_stop bol cs n : n = 0 \/ (forall i j, ~ acc cs i j) \/ quit bol -> replaced bol cs n (keep (enc_all cs))
| rep_step bol cs n i j e out : n <> 0 -> leftmost_longest cs i j -> caps bol cs i j e ->
    replaced (posn bol cs j) (skipn j cs) (n - 1) out ->
    replaced bol cs n (keep (enc_all (firstn i cs)) ++ sub e ++ out).
End Replaced.
