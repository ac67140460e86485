(** Model of the regex compiler, include/stc/priv/cregex_prv.c 333-930 (and cregex_compile_pro).

    The pattern is the memory [m], read from index [ep] on.  The instructions are a list that
    grows at its end, so an instruction pointer is an index.  longjmp with an error code is
    [Bad]; reading behind the pattern's memory or writing behind the program's is [Err].
    Simplified: character classes are values, not slots of prog->cclass (their number is
    counted); moving the program to a smaller block (_optimize 557-594) changes no index. *)
From Verif Require Import Base Utf8_Tab Utf8_Model Regex_Model.

Inductive out (A : Type) := Good (a : A) | Bad (code : Z).
Arguments Good {A} a.
Arguments Bad {A} code.
Definition cm (A : Type) := res (out A).
Definition ret {A} (a : A) : cm A := Ok (Good a).
Definition fail {A} (code : Z) : cm A := Ok (Bad code).
Definition cbind {A B} (x : cm A) (f : A -> cm B) : cm B :=
  match x with Err e => Err e | Ok (Bad c) => Ok (Bad c) | Ok (Good a) => f a end.
Notation "'let!' x := a 'in' b" := (cbind a (fun x => b)) (at level 200, x pattern, a at level 100, b at level 200, only parsing).
Definition lift {A} (x : res A) : cm A := match x with Ok a => Ok (Good a) | Err e => Err e end.

(** cregex.h 57-72. *)
Definition UNMATCHEDLEFT : Z := -4.
Definition UNMATCHEDRIGHT : Z := -5.
Definition TOOMANYSUB : Z := -6.
Definition TOOMANYCLASSES : Z := -7.
Definition MALFORMEDCLASS : Z := -8.
Definition MISSINGOPERAND : Z := -9.
Definition UNKNOWNOPERATOR : Z := -10.
Definition OPERANDOVERFLOW : Z := -11.
Definition OPERATOROVERFLOW : Z := -12.
Definition OPERATORUNDERFLOW : Z := -13.

(** * Lexer *)
(** Parts of _Parser used by the lexer (343-367): exprp, rune_type is IRUNE, dot_type is ANYNL,
    litmode, nclass. *)
Record lx := Lx { ep : Z; ric : bool; dnl : bool; lit : bool; ncls : Z }.
Definition set_ep (l : lx) (p : Z) : lx := Lx p (ric l) (dnl l) (lit l) (ncls l).
Definition set_lit (l : lx) (b : bool) : lx := Lx (ep l) (ric l) (dnl l) b (ncls l).
(** Operators that stay on the stack; the first is TOK_START-1. *)
Inductive ator := AStart | ALbra | AOr | ACat | AStar | APlus | AQuest.
Inductive token := KEnd | KRbra | KAtor (a : ator) | KOp (o : op).

Section Lex.
Variable m : list Z.
(** 208-215 chartorune: code point and size. *)
Definition chr (s : Z) : res (Z * Z) := let* d := decode_codepoint m (0, 0) s (-1) in Ok (snd (fst d), snd d).

(** strtol with base 16 from [s]: value (as a 32-bit _Rune) and end. *)
Definition hexdig (b : Z) : option Z :=
  if c_digit b then Some (b - 48) else if between 97 102 b then Some (b - 87) else if between 65 70 b then Some (b - 55) else None.
Fixpoint hex_digits (fuel : nat) (s acc : Z) : res (Z * Z) :=
  match fuel with
  | O => Err OutOfFuel
  | S k => let* b := aget m s in
           match hexdig b with Some d => hex_digits k (s + 1) (acc * 16 + d) | None => Ok (acc, s) end
  end.
Fixpoint skip_spaces (fuel : nat) (s : Z) : res Z :=
  match fuel with
  | O => Err OutOfFuel
  | S k => let* b := aget m s in if between 9 13 b || (b =? 32) then skip_spaces k (s + 1) else Ok s
  end.
Definition strtol16 (s : Z) : res (Z * Z) :=
  let fuel := S (length m) in
  let* s1 := skip_spaces fuel s in
  let* b := aget m s1 in
  let neg := b =? 45 in
  let s2 := if neg || (b =? 43) then s1 + 1 else s1 in
  let* z := aget m s2 in
  let* s3 := (if z =? 48 then
                let* x := aget m (s2 + 1) in
                if (x =? 120) || (x =? 88) then
                  let* d := aget m (s2 + 2) in Ok (match hexdig d with Some _ => s2 + 2 | None => s2 end)
                else Ok s2
              else Ok s2) in
  let* (v, e) := hex_digits fuel s3 0 in
  let v' := if neg then Z.max (- v) (- 2 ^ 63) else Z.min v (2 ^ 63 - 1) in
  Ok (v' mod 2 ^ 32, if e =? s3 then s else e).

(** 607-639 _nextc: quoted, rune, and the state behind it. *)
Fixpoint nextc (fuel : nat) (l : lx) : cm (bool * Z * lx) :=
  match fuel with
  | O => Err OutOfFuel
  | S k =>
    let! (r, n) := lift (chr (ep l)) in
    let l1 := set_ep l (ep l + n) in
    if negb (r =? 92) then ret (lit l, r, l1) else
    if lit l then
      let! b := lift (aget m (ep l1)) in
      if negb (b =? 69) then ret (true, r, l1)
      else nextc k (set_lit (set_ep l1 (ep l1 + 1)) false)
    else
      let! (r', n') := lift (chr (ep l1)) in
      let l2 := set_ep l1 (ep l1 + n') in
      if r' =? 81 then nextc k (set_lit l2 true) else
      if r' =? 120 then
        let! b := lift (aget m (ep l2)) in
        if b =? 123 then
          let! (v, e) := lift (strtol16 (ep l2 + 1)) in
          let! c := lift (aget m e) in
          if c =? 125 then ret (true, v, set_ep l2 (e + 1)) else fail UNMATCHEDRIGHT
        else ret (true, r', l2)
      else ret (true, r', l2)
  end.
Definition nextc_ (l : lx) := nextc (S (length m)) l.

(** strncmp(m + s, w, |w|) == 0 *)
Fixpoint prefix_at (w : list Z) (s : Z) : res bool :=
  match w with
  | [] => Ok true
  | c :: w => let* b := aget m s in if b =? c then prefix_at w (s + 1) else Ok false
  end.
(** The first entry of a table whose name stands at [s]. *)
Fixpoint lookup (tab : list (list Z * Z)) (s : Z) : res (option (list Z * Z)) :=
  match tab with
  | [] => Ok None
  | e :: tab => let* b := prefix_at (fst e) s in if b then Ok (Some e) else lookup tab s
  end.
(** 642-663 _lexasciiclass: names such as alnum:], tokens ASC_an + 2k. *)
Definition asc_names : list (list Z * Z) :=
  [([97;108;110;117;109;58;93], ASC_an); ([97;108;112;104;97;58;93], ASC_an + 2); ([97;115;99;105;105;58;93], ASC_an + 4);
   ([98;108;97;110;107;58;93], ASC_an + 6); ([99;110;116;114;108;58;93], ASC_an + 8); ([100;105;103;105;116;58;93], ASC_an + 10);
   ([103;114;97;112;104;58;93], ASC_an + 16); ([108;111;119;101;114;58;93], ASC_an + 22); ([112;114;105;110;116;58;93], ASC_an + 18);
   ([112;117;110;99;116;58;93], ASC_an + 20); ([115;112;97;99;101;58;93], ASC_an + 12); ([117;112;112;101;114;58;93], ASC_an + 24);
   ([120;100;105;103;105;116;58;93], ASC_an + 26); ([119;111;114;100;58;93], ASC_an + 14)].
Definition lexasciiclass (l : lx) (r : Z) : res (Z * lx) :=
  let* b := aget m (ep l + 1) in
  let inv := b =? 94 in
  let off := if inv then 2 else 1 in
  let* x := lookup asc_names (ep l + off) in
  let '(r1, l1) := match x with Some (w, t) => (t, set_ep l (ep l + off + zlen w)) | None => (r, l) end in
  let r2 := if ric l && ((r1 =? ASC_an + 22) || (r1 =? ASC_an + 24)) then ASC_an + 2 else r1 in
  Ok (if inv && negb (r2 =? 91) then r2 + 1 else r2, l1).
(** 666-706 _lexutfclass: names such as {Alpha}.  Tokens: UTF_al + 2k, UTF_GRP + 2*U8G. *)
Definition utf_names : list (list Z * Z) :=
  let g k := UTF_GRP + 2 * k in
  [([123;65;108;112;104;97;125], UTF_al); ([123;76;38;125], UTF_al + 6);
   ([123;68;105;103;105;116;125], g 2); ([123;78;100;125], g 2);
   ([123;76;111;119;101;114;125], UTF_al + 8); ([123;76;108;125], UTF_al + 8);
   ([123;85;112;112;101;114;125], UTF_al + 10); ([123;76;117;125], UTF_al + 10);
   ([123;67;110;116;114;108;125], g 0); ([123;67;99;125], g 0);
   ([123;65;108;110;117;109;125], UTF_al + 2); ([123;66;108;97;110;107;125], UTF_al + 4);
   ([123;83;112;97;99;101;125], UTF_al + 12); ([123;87;111;114;100;125], UTF_al + 14);
   ([123;88;68;105;103;105;116;125], ASC_an + 26);
   ([123;76;116;125], g 1); ([123;78;108;125], g 3); ([123;80;99;125], g 4); ([123;80;100;125], g 5);
   ([123;80;102;125], g 6); ([123;80;105;125], g 7); ([123;90;108;125], g 9); ([123;90;112;125], g 10);
   ([123;90;115;125], g 11); ([123;83;99;125], g 8);
   ([123;65;114;97;98;105;99;125], g 12); ([123;66;101;110;103;97;108;105;125], g 13);
   ([123;67;121;114;105;108;108;105;99;125], g 14); ([123;68;101;118;97;110;97;103;97;114;105;125], g 15);
   ([123;71;101;111;114;103;105;97;110;125], g 16); ([123;71;114;101;101;107;125], g 17); ([123;72;97;110;125], g 18);
   ([123;72;105;114;97;103;97;110;97;125], g 19); ([123;75;97;116;97;107;97;110;97;125], g 20);
   ([123;76;97;116;105;110;125], g 21); ([123;84;104;97;105;125], g 22)].
Definition lexutfclass (l : lx) (r : Z) : res (Z * lx) :=
  let inv := if r =? 80 then 1 else 0 in
  let* x := lookup utf_names (ep l) in
  Ok match x with
     | Some (w, t) => ((if ric l && ((t =? UTF_al + 8) || (t =? UTF_al + 10)) then UTF_al + 6 else t) + inv, set_ep l (ep l + zlen w))
     | None => (r, l)
     end.
(** 708-720 CASE_RUNE_MAPPINGS. *)
Definition rune_mapping (r : Z) : option Z :=
  if r =? 116 then Some 9 else if r =? 110 then Some 10 else if r =? 114 then Some 13 else if r =? 118 then Some 11 else
  if r =? 102 then Some 12 else if r =? 97 then Some 7 else
  if r =? 100 then Some (UTF_GRP + 4) else if r =? 68 then Some (UTF_GRP + 5) else
  if r =? 115 then Some (UTF_al + 12) else if r =? 83 then Some (UTF_al + 13) else
  if r =? 119 then Some (UTF_al + 14) else if r =? 87 then Some (UTF_al + 15) else None.

(** 799-829: the spans of a class as written; the last one may still become a range.
    [acc] is r[0 .. ep), first span first. *)
Definition NSPAN : Z := 32.
Definition fold_if (l : lx) (r : Z) : Z := if ric l then casefold r else r.
Fixpoint class_items (fuel : nat) (acc : list (Z * Z)) (quoted : bool) (rune : Z) (l : lx) : cm (list (Z * Z) * lx) :=
  match fuel with
  | O => Err OutOfFuel
  | S k =>
    if negb (zlen acc <? NSPAN) then ret (acc, l) else
    if rune =? 0 then fail MALFORMEDCLASS else
    if negb quoted && (rune =? 93) then ret (acc, l) else
    let! b := (if negb quoted && (rune =? 45) then
                 match rev acc with
                 | [] => ret None
                 | last :: _ => let! c := lift (aget m (ep l)) in ret (if c =? 93 then None else Some last)
                 end
               else ret None) in
    match b with
    | Some last =>
      let! (_, r1, l1) := nextc_ l in
      if r1 =? 0 then fail MALFORMEDCLASS else
      let acc' := removelast acc ++ [(fst last, fold_if l1 r1)] in
      let! (q, r2, l2) := nextc_ l1 in class_items k acc' q r2 l2
    | None =>
      let! (r1, l1) := lift
        (if negb quoted then
           if rune =? 91 then let* c := aget m (ep l) in if c =? 58 then lexasciiclass l rune else Ok (rune, l)
           else Ok (rune, l)
         else match rune_mapping rune with
              | Some r => Ok (r, l)
              | None => if (rune =? 112) || (rune =? 80) then lexutfclass l rune else Ok (rune, l)
              end) in
      let r' := fold_if l1 r1 in
      let! (q, r2, l2) := nextc_ l1 in class_items k (acc ++ [(r', r')]) q r2 l2
    end
  end.
(** 831-837: exchange sort on the start of the spans. *)
Fixpoint bubble (p : Z * Z) (rest done : list (Z * Z)) : (Z * Z) * list (Z * Z) :=
  match rest with
  | [] => (p, done)
  | q :: rest => if fst q <? fst p then bubble q rest (done ++ [p]) else bubble p rest (done ++ [q])
  end.
Fixpoint xsort (n : nat) (l : list (Z * Z)) : list (Z * Z) :=
  match n, l with
  | S k, p :: rest => let (p', rest') := bubble p rest [] in p' :: xsort k rest'
  | _, _ => l
  end.
(** 839-857: merge. *)
Fixpoint merge (cur : Z * Z) (l : list (Z * Z)) : list (Z * Z) :=
  match l with
  | [] => [cur]
  | p :: l => if fst p <=? snd cur then merge (fst cur, Z.max (snd cur) (snd p)) l else cur :: merge p l
  end.
Definition make_spans (l : list (Z * Z)) : list (Z * Z) :=
  match xsort (length l) l with [] => [] | c :: r => merge c r end.
(** 775-860 _bldcclass, 598-604 _newclass. *)
Definition bldcclass (l : lx) : cm (token * lx) :=
  if 16 <=? ncls l then fail TOOMANYCLASSES else
  let l0 := Lx (ep l) (ric l) (dnl l) (lit l) (ncls l + 1) in
  let! (q, r, l1) := nextc_ l0 in
  let neg := negb q && (r =? 94) in
  let! (q, r, l2) := (if neg then nextc_ l1 else ret (q, r, l1)) in
  let! (acc, l3) := class_items (S (length m)) (if neg then [(10, 10)] else []) q r l2 in
  ret (KOp (if neg then NCCLASS (make_spans acc) else CCLASS (make_spans acc)), l3).

(** 757-767: (?flags); [k] is the index from exprp. *)
Fixpoint lex_flags (fuel : nat) (k : Z) (en : bool) (l : lx) : cm (token * lx) :=
  match fuel with
  | O => Err OutOfFuel
  | S f =>
    let! b := lift (aget m (ep l + k)) in
    if b =? 0 then ret (KEnd, set_ep l (ep l + k)) else
    if b =? 41 then ret (KOp (if ric l then ICASE else CASED), set_ep l (ep l + k + 1)) else
    if b =? 45 then lex_flags f (k + 1) false l else
    if b =? 115 then lex_flags f (k + 1) en (Lx (ep l) (ric l) en (lit l) (ncls l)) else
    if b =? 105 then lex_flags f (k + 1) en (Lx (ep l) en (dnl l) (lit l) (ncls l)) else
    fail UNKNOWNOPERATOR
  end.
(** 723-772 _lex, with what _operand (400-407) takes from yyrune and yyclassp. *)
Definition rune_tok (l : lx) (r : Z) : token := KOp (if ric l then IRUNE (casefold r) else RUNE r).
Definition lex (l : lx) : cm (token * lx) :=
  let! (q, r, l1) := nextc_ l in
  if q then
    if lit l1 then ret (rune_tok l1 r, l1) else
    match rune_mapping r with
    | Some r' => ret (rune_tok l1 r', l1)
    | None =>
      if r =? 98 then ret (KOp WBOUND, l1) else
      if r =? 66 then ret (KOp NWBOUND, l1) else
      if r =? 65 then ret (KOp BOS, l1) else
      if r =? 122 then ret (KOp EOS, l1) else
      if r =? 90 then ret (KOp EOZ, l1) else
      if (r =? 112) || (r =? 80) then
        let! (r', l2) := lift (lexutfclass l1 r) in ret (rune_tok l2 r', l2)
      else ret (rune_tok l1 r, l1)
    end
  else
    if r =? 0 then ret (KEnd, l1) else
    if r =? 42 then ret (KAtor AStar, l1) else
    if r =? 63 then ret (KAtor AQuest, l1) else
    if r =? 43 then ret (KAtor APlus, l1) else
    if r =? 124 then ret (KAtor AOr, l1) else
    if r =? 94 then ret (KOp BOL, l1) else
    if r =? 36 then ret (KOp EOL, l1) else
    if r =? 46 then ret (KOp (if dnl l1 then ANYNL else ANY), l1) else
    if r =? 91 then bldcclass l1 else
    if r =? 40 then
      let! b := lift (aget m (ep l1)) in
      if b =? 63 then lex_flags (S (length m)) 1 true l1 else ret (KAtor ALbra, l1)
    else if r =? 41 then ret (KRbra, l1) else
    ret (rune_tok l1 r, l1).
End Lex.

(** * Parser *)
(** 343-367: the program so far, andstack and atorstack with subidstack (top first), cursubid,
    lastwasand, nbra, instcap. *)
Record par := Par { pcode : list inst; ands : list (nat * nat); ators : list (ator * Z); csub : Z; lw : bool; nbra : Z; icap : Z }.
Definition set_code (p : par) (c : list inst) : par := Par c (ands p) (ators p) (csub p) (lw p) (nbra p) (icap p).
Definition set_ands (p : par) (a : list (nat * nat)) : par := Par (pcode p) a (ators p) (csub p) (lw p) (nbra p) (icap p).
Definition set_ators (p : par) (a : list (ator * Z)) : par := Par (pcode p) (ands p) a (csub p) (lw p) (nbra p) (icap p).
Definition set_lw (p : par) (b : bool) : par := Par (pcode p) (ands p) (ators p) (csub p) b (nbra p) (icap p).
Definition NSTACK : nat := 20.
(** 383-390 _newinst; the block has room for instcap instructions. *)
Definition newinst (p : par) (o : op) : cm (nat * par) :=
  if zlen (pcode p) <? icap p then ret (length (pcode p), set_code p (pcode p ++ [I o None])) else Err OOB.
Definition set_next (p : par) (pc n : nat) : cm par :=
  match nth_error (pcode p) pc with
  | None => Err OOB
  | Some i => ret (set_code p (upd (pcode p) pc (I (iop i) (Some n))))
  end.
(** 432-449 _pushand, _pushator. *)
Definition pushand (p : par) (f l : nat) : cm par :=
  if (length (ands p) <? NSTACK)%nat then ret (set_ands p ((f, l) :: ands p)) else fail OPERANDOVERFLOW.
Definition pushator (p : par) (a : ator) : cm par :=
  if (length (ators p) <? NSTACK)%nat then ret (set_ators p ((a, csub p) :: ators p)) else fail OPERATOROVERFLOW.
(** 451-472 _popand, _popator. *)
Definition popand (p : par) : cm (nat * nat * par) :=
  match ands p with [] => fail MISSINGOPERAND | x :: r => ret (x, set_ands p r) end.
Definition popator (p : par) : cm (ator * Z * par) :=
  match ators p with [] => fail OPERATORUNDERFLOW | x :: r => ret (x, set_ators p r) end.
(** 106-115: the values of the operator tokens, less TOK_START. *)
Definition prio (a : ator) : Z :=
  match a with AStart => -1 | ALbra => 2 | AOr => 3 | ACat => 4 | AStar => 5 | APlus => 6 | AQuest => 7 end.
(** 482-536: one operator of _evaluntil. *)
Definition eval_op (p : par) (a : ator) (sub : Z) : cm par :=
  match a with
  | AStart => fail UNKNOWNOPERATOR
  | ALbra =>
    let! (f, l, p) := popand p in
    let! (i2, p) := newinst p (RBRA sub) in
    let! p := set_next p l i2 in
    let! (i1, p) := newinst p (LBRA sub) in
    let! p := set_next p i1 f in
    pushand p i1 i2
  | AOr =>
    let! (f2, l2, p) := popand p in
    let! (f1, l1, p) := popand p in
    let! (i2, p) := newinst p NOP in
    let! p := set_next p l2 i2 in
    let! p := set_next p l1 i2 in
    let! (i1, p) := newinst p (OR (Some f1)) in
    let! p := set_next p i1 f2 in
    pushand p i1 i2
  | ACat =>
    let! (f2, l2, p) := popand p in
    let! (f1, l1, p) := popand p in
    let! p := set_next p l1 f2 in
    pushand p f1 l2
  | AStar =>
    let! (f, l, p) := popand p in
    let! (i1, p) := newinst p (OR (Some f)) in
    let! p := set_next p l i1 in
    pushand p i1 i1
  | APlus =>
    let! (f, l, p) := popand p in
    let! (i1, p) := newinst p (OR (Some f)) in
    let! p := set_next p l i1 in
    pushand p f i1
  | AQuest =>
    let! (f, l, p) := popand p in
    let! (i1, p) := newinst p (OR (Some f)) in
    let! (i2, p) := newinst p NOP in
    let! p := set_next p i1 i2 in
    let! p := set_next p l i2 in
    pushand p i1 i2
  end.
(** 475-538 _evaluntil; [pri] None is TOK_RBRA, else its priority (TOK_START is 0). *)
Fixpoint evaluntil (fuel : nat) (pri : option Z) (p : par) : cm par :=
  match fuel with
  | O => Err OutOfFuel
  | S k =>
    let! go := (match pri with
                | None => ret true
                | Some v => match ators p with [] => Err OOB | (a, _) :: _ => ret (v <=? prio a) end
                end) in
    if go then
      let! (a, sub, p) := popator p in
      let! p := eval_op p a sub in
      match a with ALbra => ret p | _ => evaluntil k pri p end
    else ret p
  end.
Definition eval_ (pri : option Z) (p : par) : cm par := evaluntil (S (length (ators p))) pri p.
(** 412-430 _operator, for the implicit TOK_CAT, for ( , for ) and the others. *)
Definition op_cat (p : par) : cm par :=
  let! p := eval_ (Some (prio ACat)) p in
  let! p := pushator p ACat in ret (set_lw p false).
Definition operator (p : par) (a : ator) : cm par :=
  match a with
  | ALbra =>
    if 32 <=? csub p + 1 then fail TOOMANYSUB else
    let p := Par (pcode p) (ands p) (ators p) (csub p + 1) (lw p) (nbra p + 1) (icap p) in
    let! p := (if lw p then op_cat p else ret p) in
    let! p := pushator p ALbra in ret (set_lw p false)
  | _ =>
    let! p := eval_ (Some (prio a)) p in
    let! p := pushator p a in
    ret (set_lw p (match a with AStar | APlus | AQuest => true | _ => false end))
  end.
Definition op_rbra (p : par) : cm par :=
  if nbra p - 1 <? 0 then fail UNMATCHEDRIGHT else
  let! p := eval_ None (Par (pcode p) (ands p) (ators p) (csub p) (lw p) (nbra p - 1) (icap p)) in
  ret (set_lw p true).
(** 392-410 _operand. *)
Definition operand (p : par) (o : op) : cm par :=
  let! p := (if lw p then op_cat p else ret p) in
  let! (i, p) := newinst p o in
  let! p := pushand p i i in
  ret (set_lw p true).
(** 904-907: one token. *)
Definition feed (p : par) (t : token) : cm par :=
  match t with
  | KEnd => ret p
  | KRbra => op_rbra p
  | KAtor a => operator p a
  | KOp o => operand p o
  end.
(** 903-908: the loop over the tokens. *)
Fixpoint comp_loop (fuel : nat) (m : list Z) (l : lx) (p : par) : cm par :=
  match fuel with
  | O => Err OutOfFuel
  | S k =>
    let! (t, l) := lex m l in
    match t with
    | KEnd => ret p
    | _ => let! p := feed p t in comp_loop k m l p
    end
  end.
(** 541-555 _optimize: skip NOPs.  The search for the next instruction that is none. *)
Fixpoint skip_nop (fuel : nat) (c : list inst) (pc : option nat) : res nat :=
  match fuel with
  | O => Err OutOfFuel
  | S k =>
    match pc with
    | None => Err NullDeref
    | Some n =>
      match nth_error c n with
      | None => Err OOB
      | Some i => match iop i with NOP => skip_nop k c (inext i) | _ => Ok n end
      end
    end
  end.
Fixpoint opt_loop (fuel : nat) (c : list inst) (pc : nat) : res (list inst) :=
  match fuel with
  | O => Err OutOfFuel
  | S k =>
    match nth_error c pc with
    | None => Err OOB
    | Some i =>
      match iop i with
      | END => Ok c
      | _ => let* n := skip_nop (S (length c)) c (inext i) in
             opt_loop k (upd c pc (I (iop i) (Some n))) (S pc)
      end
    end
  end.
(** 863-930 _regcomp1, and cregex_compile_pro for a pattern of [len] bytes at [s]. *)
Definition finish (p : par) (ic : bool) : cm prog :=
  let! p := eval_ (Some 0) p in
  let! p := operand p END in
  let! p := eval_ (Some 0) p in
  if negb (nbra p =? 0) then fail UNMATCHEDLEFT else
  match ands p with
  | [] => Err OOB
  | (f, _) :: _ =>
    let! c := lift (opt_loop (S (length (pcode p))) (pcode p) 0) in
    ret (Prog c f ic (Z.to_nat (csub p)))
  end.
Definition par0 (len : Z) : par := Par [] [] [(AStart, 0)] 0 false 0 (5 + 6 * len).
Definition compile (m : list Z) (s len : Z) (icase dotall : bool) : cm prog :=
  let! p := comp_loop (S (length m)) m (Lx s icase dotall false 0) (par0 len) in
  finish p icase.
