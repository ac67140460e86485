(** What a regex program means, independently of how it is executed.

    The text is a list [cs] of code points; an instruction either takes the code point at
    the current index, or holds there without taking anything.  A program accepts the span
    [i, j) if some path of instructions leads from its start at [i] to END at [j]. *)
From Verif Require Import Base Utf8_Tab Utf8_Model Utf8_Spec Regex_Model.

Section Spec.
Variable runematch : Z -> Z -> res bool.
Variable pr : prog.
Variable cs : list Z.
(** byte position of an index *)
Variable pos : nat -> Z.

Definition in_spans (sp : list (Z * Z)) (r : Z) : Prop :=
  exists a b, In (a, b) sp /\ (a <= r <= b \/ a = b /\ runematch a r = Ok true).
Definition folded (r : Z) : Z := if picase pr then casefold r else r.
Definition takes (o : op) (r : Z) : Prop :=
  match o with
  | RUNE c => runematch c r = Ok true
  | IRUNE c => runematch c (casefold r) = Ok true
  | ANY => r <> 10
  | ANYNL => True
  | CCLASS sp => in_spans sp (folded r)
  | NCCLASS sp => ~ in_spans sp (folded r)
  | _ => False
  end.
Definition holds (o : op) (i : nat) : Prop :=
  match o with
  | LBRA _ | RBRA _ | OR _ => True
  | BOL => i = 0%nat \/ nth_error cs (i - 1) = Some 10
  | BOS => i = 0%nat
  | EOL => i = length cs \/ nth_error cs i = Some 10
  | EOS => i = length cs
  | EOZ => i = length cs \/ nth_error cs i = Some 10 /\ S i = length cs
  | _ => False
  end.
(** One instruction at [pc], at index [i]; the captures [e] (byte position, size) are set by
    brackets only. *)
Definition set_caps (o : op) (i : nat) (e : se) : se :=
  match o with
  | LBRA k => upd e (Z.to_nat k) (Some (pos i), snd (nth (Z.to_nat k) e (None, 0)))
  | RBRA k => let b := fst (nth (Z.to_nat k) e (None, 0)) in upd e (Z.to_nat k) (b, pos i - ptr b)
  | _ => e
  end.
Definition conf : Type := (nat * nat * se)%type.
Inductive cstep : conf -> conf -> Prop :=
| cs_take pc i e o n c : nth_error (code pr) pc = Some (I o (Some n)) -> nth_error cs i = Some c -> takes o c ->
    cstep (pc, i, e) (n, S i, e)
| cs_pass pc i e o n : nth_error (code pr) pc = Some (I o (Some n)) -> holds o i -> cstep (pc, i, e) (n, i, set_caps o i e)
| cs_right pc i e q n : nth_error (code pr) pc = Some (I (OR (Some q)) n) -> cstep (pc, i, e) (q, i, e).
Inductive csteps : conf -> conf -> Prop :=
| css_refl x : csteps x x
| css_snoc x y z : csteps x y -> cstep y z -> csteps x z.

(** The same without captures. *)
Inductive step : nat * nat -> nat * nat -> Prop :=
| st_take pc i o n c : nth_error (code pr) pc = Some (I o (Some n)) -> nth_error cs i = Some c -> takes o c -> step (pc, i) (n, S i)
| st_pass pc i o n : nth_error (code pr) pc = Some (I o (Some n)) -> holds o i -> step (pc, i) (n, i)
| st_right pc i q n : nth_error (code pr) pc = Some (I (OR (Some q)) n) -> step (pc, i) (q, i).
Inductive steps : nat * nat -> nat * nat -> Prop :=
| ss_refl x : steps x x
| ss_snoc x y z : steps x y -> step y z -> steps x z.
Definition is_end (pc : nat) : Prop := exists n, nth_error (code pr) pc = Some (I END n).
Definition accepts (i j : nat) : Prop := (i <= length cs)%nat /\ exists pc, steps (startpc pr, i) (pc, j) /\ is_end pc.
(** Leftmost start at or after [i0], then longest. *)
Definition best (i0 i j : nat) : Prop :=
  (i0 <= i)%nat /\ accepts i j /\
  forall i' j', (i0 <= i')%nat -> accepts i' j' -> (i < i')%nat \/ i' = i /\ (j' <= j)%nat.
(** The captures of some accepting path. *)
Definition captured (ms i j : nat) (e : se) : Prop :=
  exists pc e', csteps (startpc pr, i, empty_se ms (pos i)) (pc, j, e') /\ is_end pc /\ e = upd e' 0 (Some (pos i), pos j - pos i).

(** Programs without case-flag changes and word boundaries; capture ids from 1 on. *)
Definition core_op (o : op) : Prop :=
  match o with
  | RUNE _ => picase pr = false
  | IRUNE _ => picase pr = true
  | CASED | ICASE | WBOUND | NWBOUND => False
  | LBRA k | RBRA k => 1 <= k
  | _ => True
  end.
Definition core : Prop := forall pc i, nth_error (code pr) pc = Some i -> core_op (iop i).
End Spec.

(** The text is a C string of well-formed UTF-8 at [bol]. *)
Definition text (m : list Z) (bol : Z) (cs : list Z) : Prop :=
  holds_at m bol (enc_all cs ++ [0]) /\ Forall scalar cs /\ Forall (fun c => c <> 0) cs.
(** The fast start loses no match: not with ^ first, and for a first letter without case no
    character from 128 on folds to it. *)
Definition start_ok (pr : prog) (cs : list Z) : Prop :=
  forall o n, nth_error (code pr) (startpc pr) = Some (I o n) ->
    match o with
    | IRUNE c => c < 128 -> forall x, In x cs -> 128 <= x -> casefold x <> c
    | BOL => False
    | _ => True
    end.
(** The first instruction as the compiler makes it. *)
Definition first_ok (pr : prog) : Prop :=
  forall o n, nth_error (code pr) (startpc pr) = Some (I o n) ->
    match o with RUNE c => 0 <= c | IRUNE c => 0 <= c /\ casefold c = c | _ => True end.
(** A view: the same without the NUL. *)
Definition viewed (m : list Z) (bol : Z) (cs : list Z) : Prop :=
  holds_at m bol (enc_all cs) /\ Forall scalar cs /\ Forall (fun c => c <> 0) cs.
(** Byte position of an index of the text at [bol]. *)
Definition posn (bol : Z) (cs : list Z) (i : nat) : Z := bol + cp_offset cs i.
(** A match of [cs] at or after [i0] and its captures in [e]; the best one if [full_ok]. *)
Definition found rm (pr : prog) (bol : Z) (cs : list Z) (i0 : nat) (full_ok : Prop) (e : se) : Prop :=
  exists i j e', (i0 <= i)%nat /\ accepts rm pr cs i j /\ (full_ok -> best rm pr cs i0 i j) /\
    captured rm pr cs (posn bol cs) (S (nsub pr)) i j e' /\ firstn (S (nsub pr)) e = firstn (S (nsub pr)) e' /\
    m0 e = (Some (posn bol cs i), posn bol cs j - posn bol cs i).
