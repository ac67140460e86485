(** Model of the matcher of cregex.h: priv/cregex_prv.c 46-331, 999-1304.

    The program is an array of instructions; an instruction pointer is an index, NULL is
    [None].  The text is an array [m] of bytes 0..255 (see Utf8_Model), a char pointer is an
    index into it.  [_runematch] (the character class predicates) and utf8_isword are
    parameters here: [runematch c r] is the test of the rune or class token [c] on the code
    point [r]; it may be undefined ([Err]). *)
From Verif Require Import Base Utf8_Tab Utf8_Model.

(** cregex_prv.c 55-68, 108-180: an instruction with its operand [r] and [l.next].  A class
    pointer is replaced by the spans of the class. *)
Inductive op :=
| RUNE (c : Z) | IRUNE (c : Z) | ANY | ANYNL | NOP | BOL | BOS | EOL | EOS | EOZ
| CCLASS (sp : list (Z * Z)) | NCCLASS (sp : list (Z * Z)) | WBOUND | NWBOUND
| CASED | ICASE | LBRA (k : Z) | RBRA (k : Z) | OR (right : option nat) | END.
Record inst := I { iop : op; inext : option nat }.
(** cregex_prv.c 78-86 _Reprog: code, startinst, flags.icase, nsubids. *)
Record prog := Prog { code : list inst; startpc : nat; picase : bool; nsub : nat }.
(** cregex_prv.c 91-99, 188-192: subexpression matches (buf, size); a thread. *)
Definition se : Type := list (option Z * Z).
Record thr := Thr { tpc : nat; tse : se }.
(** Order of pointers; NULL is below all. *)
Definition ptr (o : option Z) : Z := match o with Some b => b | None => -1 end.
Definition m0 (e : se) : option Z * Z := nth 0 e (None, 0).
Definition m0buf (e : se) : Z := ptr (fst (m0 e)).

(** cregex_prv.c 258-268 _renewmatch; [ms] entries, [ns] = nsubids. *)
Definition renewmatch (mp : option se) (ms : nat) (sp : se) (ns : nat) : option se :=
  match mp with
  | None => None
  | Some e =>
    if (ms =? 0)%nat then mp else
    if match fst (m0 e) with None => true | Some _ => false end || (m0buf sp <? m0buf e) ||
       ((m0buf sp =? m0buf e) && (snd (m0 e) <? snd (m0 sp)))
    then let n := Nat.min ms (S ns) in Some (firstn n sp ++ skipn n e) else mp
  end.

(** cregex_prv.c 270-301 _renewthread, from the entry [lp] on.  [l]: the entries from lp on,
    [base]: how many lie before it, [cap]: the length of the array.  The result is the list
    and, if an entry was added, the index of the new end marker.  All [ms] entries of the
    subexpressions are copied (the C code copies all, or only the first if ms is 1). *)
Fixpoint renew_scan (l : list thr) (pc : nat) (sp : se) : option (list thr) :=
  match l with
  | [] => None
  | t :: r =>
    if (tpc t =? pc)%nat then Some ((if m0buf sp <? m0buf (tse t) then Thr pc sp else t) :: r)
    else match renew_scan r pc sp with Some r' => Some (t :: r') | None => None end
  end.
Definition renewthread (cap base : Z) (l : list thr) (pc : nat) (sp : se) : res (list thr * option Z) :=
  match renew_scan l pc sp with
  | Some l' => Ok (l', None)
  | None => let e := base + zlen l + 1 in
            if e <? cap then Ok (l ++ [Thr pc sp], Some e) else Err OOB
  end.
(** cregex_prv.c 303-331 _renewemptythread: as above with only m[0].buf set. *)
Definition empty_se (ms : nat) (s : Z) : se := (Some s, 0) :: repeat (None, 0) (ms - 1).

(** cregex_prv.c 217-249 utfrune, utfruneicase for an ASCII character (strchr, and C-locale
    tolower byte by byte); other characters are never searched for. *)
Fixpoint strchr (fuel : nat) (f : Z -> Z) (m : list Z) (s c : Z) : res (option Z) :=
  match fuel with
  | O => Err OutOfFuel
  | S k => let* b := aget m s in
           if f b =? c then Ok (Some s) else if b =? 0 then Ok None else strchr k f m (s + 1) c
  end.
Definition lower (b : Z) : Z := if (65 <=? b) && (b <=? 90) then b + 32 else b.
Definition utfrune (m : list Z) (s c : Z) : res (option Z) := strchr (S (length m)) (fun b => b) m s c.
Fixpoint icase_loop (fuel : nat) (m : list Z) (s low : Z) : res (option Z) :=
  match fuel with
  | O => Err OutOfFuel
  | S k => let* b := aget m s in
           if b =? 0 then Ok None else if lower b =? low then Ok (Some s) else icase_loop k m (s + 1) low
  end.
Definition utfruneicase (m : list Z) (s c : Z) : res (option Z) := icase_loop (S (length m)) m s (lower c).

Inductive starttype := SNone | SRune (c : Z) | SIRune (c : Z) | SBol.
Definition has_start (t : starttype) : bool := match t with SNone => false | _ => true end.

Section Exec.
Variable runematch : Z -> Z -> res bool.
Variable isword : Z -> bool.
Variable pr : prog.
Variable m : list Z.        (* the memory of the text *)
Variable bol : Z.
Variable eol : option Z.
Variable full : bool.       (* mflags & CREG_FULLMATCH *)
Variable ms : nat.
Variable styp : starttype.
Variable cap : Z.           (* length of each thread list *)

Definition at_eol (s : Z) : bool := match eol with Some e => s =? e | None => false end.

(** cregex_prv.c 1119-1125: the loop over the spans of a class. *)
Fixpoint in_class (sp : list (Z * Z)) (r : Z) : res bool :=
  match sp with
  | [] => Ok false
  | (a, b) :: q =>
    if (a <=? r) && (r <=? b) then Ok true else
    let* x := (if a =? b then runematch a r else Ok false) in
    if x then Ok true else in_class q r
  end.

(** Variables of _regexec1 changed by the instructions: r, icase, match, mp and the next list. *)
Record loc := Loc { l_r : Z; l_icase : bool; l_match : bool; l_mp : option se; l_nl : list thr }.
Definition set_r (st : loc) (r : Z) : loc := Loc r (l_icase st) (l_match st) (l_mp st) (l_nl st).
Definition set_icase (st : loc) (b : bool) : loc := Loc (l_r st) b (l_match st) (l_mp st) (l_nl st).
Definition set_nl (st : loc) (l : list thr) : loc := Loc (l_r st) (l_icase st) (l_match st) (l_mp st) l.

(** What an instruction does: go on with l.next, end the thread (ok: it survives into the next
    list), or report that a list is full. *)
Inductive act := Go (cur : se) (rest : list thr) (st : loc) | Brk (ok : bool) (cur : se) (st : loc) | Over.

(** cregex_prv.c 1072-1141: one instruction.  [cur] is tlp->se, [t0] tlp->inst, [rest] the
    entries after tlp. *)
Definition word_test (s : Z) : res bool :=
  if (s =? bol) || at_eol s then Ok true else
  let* a := peek_at m s (-1) in let* b := peek m s in Ok (xorb (isword a) (isword b)).
Definition prev_nl (s : Z) : res bool :=
  if s =? bol then Ok true else let* b := aget m (s - 1) in Ok (b =? 10).
Definition go_if (b : bool) (cur : se) (rest : list thr) (st : loc) : act := if b then Go cur rest st else Brk false cur st.
Definition exec_op (s base : Z) (t0 : nat) (rest : list thr) (o : op) (cur : se) (st : loc) : res act :=
  let r := l_r st in
  match o with
  | RUNE c => let* b := runematch c r in Ok (Brk b cur st)
  | IRUNE c => let r' := casefold r in let* b := runematch c r' in Ok (Brk b cur (set_r st r'))
  | CASED => Ok (Go cur rest (set_icase st false))
  | ICASE => Ok (Go cur rest (set_icase st true))
  | LBRA k => let* e := aget cur k in let* cur' := aset cur k (Some s, snd e) in Ok (Go cur' rest st)
  | RBRA k => let* e := aget cur k in let* cur' := aset cur k (fst e, s - ptr (fst e)) in Ok (Go cur' rest st)
  | ANY => Ok (Brk (negb (r =? 10)) cur st)
  | ANYNL => Ok (Brk true cur st)
  | NOP => Ok (Brk false cur st)
  | BOL => let* b := prev_nl s in Ok (go_if b cur rest st)
  | BOS => Ok (go_if (s =? bol) cur rest st)
  | EOL => Ok (go_if ((r =? 10) || at_eol s || (r =? 0)) cur rest st)
  | EOS => Ok (go_if (at_eol s || (r =? 0)) cur rest st)
  | EOZ =>
    if at_eol s || (r =? 0) then Ok (Go cur rest st) else
    if r =? 10 then let* b := aget m (s + 1) in Ok (go_if (b =? 0) cur rest st) else Ok (Brk false cur st)
  | NWBOUND => let* b := word_test s in Ok (if b then Brk true cur st else Go cur rest st)
  | WBOUND => let* b := word_test s in Ok (go_if b cur rest st)
  | CCLASS sp => let r' := if l_icase st then casefold r else r in
    let* b := in_class sp r' in Ok (Brk b cur (set_r st r'))
  | NCCLASS sp => let r' := if l_icase st then casefold r else r in
    let* b := in_class sp r' in Ok (Brk (negb b) cur (set_r st r'))
  | OR q =>
    match q with
    | None => Err NullDeref
    | Some q =>
      let* x := renewthread cap base (Thr t0 cur :: rest) q cur in
      if match snd x with Some e => e =? cap - 2 | None => false end then Ok Over
      else Ok (Go cur (tl (fst x)) st)
    end
  | END =>
    let b := m0buf cur in
    let* f := (if negb full then Ok true else
               if at_eol s || (r =? 0) || (r =? 10) then prev_nl b else Ok false) in
    let* cur' := aset cur 0 (fst (m0 cur), s - b) in
    Ok (Brk false cur' (Loc r (l_icase st) f (renewmatch (l_mp st) ms cur' (nsub pr)) (l_nl st)))
  end.

(** cregex_prv.c 1071-1146: the inner loop, from instruction [pc] on. *)
Fixpoint chain (fuel : nat) (s base : Z) (t0 : nat) (rest : list thr) (pc : nat) (cur : se) (st : loc) : res (option (list thr * loc)) :=
  match fuel with
  | O => Err OutOfFuel
  | S k =>
    match nth_error (code pr) pc with
    | None => Err OOB
    | Some i =>
      let* a := exec_op s base t0 rest (iop i) cur st in
      match a with
      | Over => Ok None
      | Go cur' rest' st' =>
        match inext i with None => Err NullDeref | Some n => chain k s base t0 rest' n cur' st' end
      | Brk ok cur' st' =>
        if ok then
          match inext i with
          | None => Err NullDeref
          | Some n =>
            let* x := renewthread cap 0 (l_nl st') n cur' in
            if match snd x with Some e => e =? cap - 2 | None => false end then Ok None
            else Ok (Some (rest, set_nl st' (fst x)))
          end
        else Ok (Some (rest, st'))
      end
    end
  end.
(** cregex_prv.c 1069-1070: the loop over the current list; [base] entries are done. *)
Fixpoint run_list (fuel : nat) (s base : Z) (pend : list thr) (st : loc) : res (option loc) :=
  match pend with
  | [] => Ok (Some st)
  | t :: rest =>
    match fuel with
    | O => Err OutOfFuel
    | S k =>
      let* o := chain (S (length (code pr))) s base (tpc t) rest (tpc t) (tse t) st in
      match o with None => Ok None | Some (rest', st') => run_list k s (base + 1) rest' st' end
    end
  end.

(** cregex_prv.c 1032-1054: skip to the next place where the first instruction can match;
    [None]: return. *)
Definition start_check (s : Z) : res (option Z) :=
  match styp with
  | SNone => Ok (Some s)
  | SRune c => let* p := utfrune m s c in Ok (if at_eol s then None else p)
  | SIRune c => let* p := utfruneicase m s c in Ok (if at_eol s then None else p)
  | SBol => if s =? bol then Ok (Some s) else
            let* p := utfrune m s 10 in
            Ok (if at_eol s then None else match p with Some q => Some (q + 1) | None => None end)
  end.
(** cregex_prv.c 1055-1056, 208-215. *)
Definition rune_at (s : Z) : res (Z * Z) :=
  let* b := aget m s in
  if b <? 0x80 then Ok (b, 1) else let* d := decode_codepoint m (0, 0) s (-1) in Ok (snd (fst d), snd d).
(** cregex_prv.c 1029-1153: the main loop.  Result: -1 (list full), 0 or 1, and mp. *)
Definition b2z (b : bool) : Z := if b then 1 else 0.
Fixpoint loop (fuel : nat) (s : Z) (checkstart : bool) (tl : list thr) (icase mat : bool) (mp : option se) : res (Z * option se) :=
  match fuel with
  | O => Err OutOfFuel
  | S k =>
    let* q := (if checkstart then start_check s else Ok (Some s)) in
    match q with
    | None => Ok (b2z mat, mp)
    | Some s =>
      let* (r, n) := rune_at s in
      let* tl1 := (if mat then Ok tl else
                   let* x := renewthread cap 0 tl (startpc pr) (empty_se ms s) in Ok (fst x)) in
      let* o := run_list (Z.to_nat cap) s 0 tl1 (Loc r icase mat mp []) in
      match o with
      | None => Ok (-1, mp)
      | Some st =>
        if at_eol s || (l_r st =? 0) then Ok (b2z (l_match st), l_mp st)
        else loop k (s + n) (has_start styp && match l_nl st with [] => true | _ => false end)
                  (l_nl st) (l_icase st) (l_match st) (l_mp st)
      end
    end
  end.
End Exec.

(** cregex_prv.c 1000-1028: _regexec1 with lists of [cap] entries, starting at [starts]. *)
Definition clear_mp (mp : option se) (ms : nat) : option se :=
  match mp with None => None | Some e => Some (repeat (None, 0) (Nat.min ms (length e)) ++ skipn ms e) end.
Definition regexec1 runematch isword (pr : prog) (m : list Z) (bol starts : Z) (eol : option Z) (full : bool)
    (mp : option se) (ms : nat) (styp : starttype) (cap : Z) : res (Z * option se) :=
  loop runematch isword pr m bol eol full ms styp cap (S (length m)) starts (has_start styp) []
       (picase pr) false (clear_mp mp ms).

(** cregex_prv.c 1185-1230 _regexec; 1157-1183 _regexec2. *)
Definition start_of (pr : prog) : res starttype :=
  match nth_error (code pr) (startpc pr) with
  | None => Err OOB
  | Some i =>
    Ok match iop i with
       | RUNE c => if negb (picase pr) && (c <? 128) then SRune c else SNone
       | IRUNE c => if picase pr && (c <? 128) then SIRune c else SNone
       | BOL => SBol
       | _ => SNone
       end
  end.
Inductive mflag := FDefault | FFull | FNext | FStartEnd.
Definition regexec runematch isword (pr : prog) (m : list Z) (bol : Z) (ms : nat) (mp : option se) (fl : mflag) : res (Z * option se) :=
  let start0 := match mp with Some e => m0 e | None => (None, 0) end in
  let (starts, eol) :=
    match fst start0, fl with
    | Some b, FStartEnd => (b, Some (b + snd start0))
    | Some b, FNext => (b + snd start0, None)
    | _, _ => (bol, None)
    end in
  let full := match fl with FFull => true | _ => false end in
  let* styp := start_of pr in
  let* x := regexec1 runematch isword pr m bol starts eol full mp ms styp 10 in
  if 0 <=? fst x then Ok x else
  regexec1 runematch isword pr m bol starts eol full (snd x) ms styp 100.

(** cregex_prv.c 1287-1295 cregex_match_pro: CREG_OK, CREG_NOMATCH, CREG_MATCHERROR. *)
Definition match_pro runematch isword (pr : prog) (m : list Z) (input : Z) (mp : option se) (fl : mflag) : res (Z * option se) :=
  let* x := regexec runematch isword pr m input (S (nsub pr)) mp fl in
  Ok (if fst x =? 1 then 0 else if fst x =? 0 then -1 else -2, snd x).
(** cregex.h 117-138: cregex_match, cregex_is_match, cregex_match_sv, cregex_match_next,
    cregex_match_next_sv. *)
Definition match_str runematch isword pr m input (mt : se) := match_pro runematch isword pr m input (Some mt) FDefault.
Definition is_match runematch isword pr m input : res bool :=
  let* x := match_pro runematch isword pr m input None FDefault in Ok (fst x =? 0).
Definition match_sv runematch isword pr m (buf size : Z) (mt : se) :=
  let* mt' := aset mt 0 (Some buf, size) in match_pro runematch isword pr m buf (Some mt') FStartEnd.
Definition match_next runematch isword pr m input (mt : se) := match_pro runematch isword pr m input (Some mt) FNext.
Definition match_next_sv runematch isword pr m (buf size : Z) (mt : se) :=
  let* mt' := match fst (m0 mt) with
              | Some b => aset mt 0 (Some (b + snd (m0 mt)), buf + size - (b + snd (m0 mt)))
              | None => Ok mt end in
  match_pro runematch isword pr m buf (Some mt') FStartEnd.

(** cregex_prv.c 938-993 _runematch.  The tokens ASC_an (0x8100002) to ASC_XD come in pairs, the
    second one negated; then 8 pairs UTF_al to UTF_WR and the pairs from UTF_GRP (0x8150000) on,
    one for each of the 23 groups of ucd_prv.c 33-42.  [up] stands for what the utf8_is functions
    of ucd_prv.c answer for these.  The ctype functions are those of the C locale; called with
    more than an unsigned char can hold they are undefined (C11 7.4), here [Overflow]. *)
Definition between (a b r : Z) : bool := (a <=? r) && (r <=? b).
Definition c_digit := between 48 57.
Definition c_lower := between 97 122.
Definition c_upper := between 65 90.
Definition c_alnum (r : Z) : bool := c_digit r || c_lower r || c_upper r.
Definition asc_class (k r : Z) : res bool :=
  let byte (b : bool) := if between 0 255 r then Ok b else Err Overflow in
  match k with
  | 0 => byte (c_alnum r)
  | 1 => byte (c_lower r || c_upper r)
  | 2 => Ok (r <? 128)
  | 3 => Ok ((r =? 32) || (r =? 9))
  | 4 => byte (between 0 31 r || (r =? 127))
  | 5 => byte (c_digit r)
  | 6 => byte (between 9 13 r || (r =? 32))
  | 7 => byte (c_alnum r || (r =? 95))
  | 8 => byte (between 33 126 r)
  | 9 => byte (between 32 126 r)
  | 10 => byte (between 33 126 r && negb (c_alnum r))
  | 11 => byte (c_lower r)
  | 12 => byte (c_upper r)
  | _ => byte (c_digit r || between 97 102 r || between 65 70 r)
  end.
Definition ASC_an : Z := 0x8100002.
Definition UTF_al : Z := 0x810001e.
Definition UTF_GRP : Z := 0x8150000.
Definition rune_match (up : Z -> Z -> bool) (s r : Z) : res bool :=
  let inv := Z.odd s in
  if between ASC_an (ASC_an + 27) s then let* b := asc_class ((s - ASC_an) / 2) r in Ok (xorb inv b)
  else if between UTF_al (UTF_al + 15) s || between UTF_GRP (UTF_GRP + 45) s then Ok (xorb inv (up (s - Z.b2z inv) r))
  else Ok (s =? r).
