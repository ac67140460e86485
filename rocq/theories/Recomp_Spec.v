(** What a pattern means, independently of how it is compiled: the grammar of the tokens gives an
    expression, the expression a set of spans. *)
From Verif Require Import Base Utf8_Tab Utf8_Model Utf8_Spec Regex_Model Regex_Spec Recomp_Model.

(** * Expressions *)
Inductive re :=
| EEmpty
| EAtom (o : op)
| EGrp (k : Z) (e : re)
| ECat (e1 e2 : re)
| EAlt (e1 e2 : re)
| EStar (e : re)
| EPlus (e : re)
| EQuest (e : re).

(** * Grammar
    Closures bind tighter than concatenation, which binds tighter than |; groups are numbered by
    their opening bracket.  [k] and the last argument: the number of the last group before and
    after. *)
Definition atom_op (o : op) : Prop := match o with NOP | LBRA _ | RBRA _ | OR _ | END => False | _ => True end.
Inductive p_alt : Z -> list token -> re -> Z -> Prop :=
| pa_one k ts e k' : p_cat k ts e k' -> p_alt k ts e k'
| pa_or k ts1 e1 k1 ts2 e2 k2 : p_alt k ts1 e1 k1 -> p_cat k1 ts2 e2 k2 -> p_alt k (ts1 ++ KAtor AOr :: ts2) (EAlt e1 e2) k2
with p_cat : Z -> list token -> re -> Z -> Prop :=
| pc_one k ts e k' : p_post k ts e k' -> p_cat k ts e k'
| pc_cat k ts1 e1 k1 ts2 e2 k2 : p_cat k ts1 e1 k1 -> p_post k1 ts2 e2 k2 -> p_cat k (ts1 ++ ts2) (ECat e1 e2) k2
with p_post : Z -> list token -> re -> Z -> Prop :=
| pp_atom k o : atom_op o -> p_post k [KOp o] (EAtom o) k
| pp_grp k ts e k' : p_alt (k + 1) ts e k' -> p_post k (KAtor ALbra :: ts ++ [KRbra]) (EGrp (k + 1) e) k'
| pp_star k ts e k' : p_post k ts e k' -> p_post k (ts ++ [KAtor AStar]) (EStar e) k'
| pp_plus k ts e k' : p_post k ts e k' -> p_post k (ts ++ [KAtor APlus]) (EPlus e) k'
| pp_quest k ts e k' : p_post k ts e k' -> p_post k (ts ++ [KAtor AQuest]) (EQuest e) k'.
Definition parses (ts : list token) (e : re) (k : Z) : Prop := p_alt 0 ts e k \/ ts = [] /\ e = EEmpty /\ k = 0.

(** * Meaning *)
Section Den.
Variable runematch : Z -> Z -> res bool.
Variable ic : bool.
Variable cs : list Z.
Variable pos : nat -> Z.
Definition takes_ := takes runematch (Prog [] 0 ic 0).
(** From an index with captures to another. *)
Inductive den : re -> nat * se -> nat * se -> Prop :=
| d_empty x : den EEmpty x x
| d_take o i e c : nth_error cs i = Some c -> takes_ o c -> den (EAtom o) (i, e) (S i, e)
| d_hold o i e : holds cs o i -> den (EAtom o) (i, e) (i, e)
| d_grp k e i c j c' : den e (i, set_caps pos (LBRA k) i c) (j, c') -> den (EGrp k e) (i, c) (j, set_caps pos (RBRA k) j c')
| d_cat e1 e2 x y z : den e1 x y -> den e2 y z -> den (ECat e1 e2) x z
| d_alt1 e1 e2 x y : den e1 x y -> den (EAlt e1 e2) x y
| d_alt2 e1 e2 x y : den e2 x y -> den (EAlt e1 e2) x y
| d_star0 e x : den (EStar e) x x
| d_star1 e x y z : den e x y -> den (EStar e) y z -> den (EStar e) x z
| d_plus e x y z : den e x y -> den (EStar e) y z -> den (EPlus e) x z
| d_quest0 e x : den (EQuest e) x x
| d_quest1 e x y : den e x y -> den (EQuest e) x y.
(** The same without captures: the spans [i, j) of the text that the expression matches. *)
Inductive lang : re -> nat -> nat -> Prop :=
| l_empty i : lang EEmpty i i
| l_take o i c : nth_error cs i = Some c -> takes_ o c -> lang (EAtom o) i (S i)
| l_hold o i : holds cs o i -> lang (EAtom o) i i
| l_grp k e i j : lang e i j -> lang (EGrp k e) i j
| l_cat e1 e2 i j l : lang e1 i j -> lang e2 j l -> lang (ECat e1 e2) i l
| l_alt1 e1 e2 i j : lang e1 i j -> lang (EAlt e1 e2) i j
| l_alt2 e1 e2 i j : lang e2 i j -> lang (EAlt e1 e2) i j
| l_star0 e i : lang (EStar e) i i
| l_star1 e i j l : lang e i j -> lang (EStar e) j l -> lang (EStar e) i l
| l_plus e i j l : lang e i j -> lang (EStar e) j l -> lang (EPlus e) i l
| l_quest0 e i : lang (EQuest e) i i
| l_quest1 e i j : lang e i j -> lang (EQuest e) i j.
End Den.
(** The program means the expression: its paths to END and their captures are those of the
    expression. *)
Definition means (pr : prog) (e : re) : Prop :=
  forall rm cs pos i c j c',
    (exists pc, csteps rm pr cs pos (startpc pr, i, c) (pc, j, c') /\ is_end pr pc) <-> den rm (picase pr) cs pos e (i, c) (j, c').
(** The tokens of the pattern [m] from the lexer state [l] on. *)
Inductive lexes (m : list Z) : lx -> list token -> Prop :=
| lx_end l l' : lex m l = ret (KEnd, l') -> lexes m l []
| lx_tok l t l' ts : lex m l = ret (t, l') -> t <> KEnd -> lexes m l' ts -> lexes m l (t :: ts).

(** What may fail although the pattern is fine: too many groups or too deep nesting. *)
Definition resource (c : Z) : Prop := c = TOOMANYSUB \/ c = OPERANDOVERFLOW \/ c = OPERATOROVERFLOW.

(** * Patterns that are safe to compile
    The bytes [r] of a pattern: every \ is followed by something, but not by Q; every [ is closed
    within 30 bytes by a ] that neither \ nor : precedes, or stands at most 30 bytes before the
    end. *)
Fixpoint slash_ok (r : list Z) : Prop :=
  match r with
  | [] => True
  | b :: r => if b =? 92 then match r with [] => False | c :: r => c <> 81 /\ slash_ok r end else slash_ok r
  end.
Definition closed_in (n : Z) (r : list Z) : Prop :=
  zlen r <= n \/ exists x y, r = x ++ 93 :: y /\ zlen x <= n /\ forall x0 z, x = x0 ++ [z] -> z <> 92 /\ z <> 58.
Definition classes_ok (r : list Z) : Prop := forall a b, r = a ++ 91 :: b -> closed_in 30 b.
Definition safe_pattern (r : list Z) : Prop := slash_ok r /\ classes_ok r.
