(** Specification of cstr: a string of bytes. *)
From Verif Require Import Base Slots Utf8_Model Utf8_Spec View_Spec.
From Verif Require Export Cstr_Model.

(** The slots from [i] on hold the bytes [l]. *)
Definition cells (d : slots Z) (i : Z) (l : list Z) : Prop := forall k x, aget l k = Ok x -> aget d (i + k) = Ok (Some x).
(** The buffer of [s] has room for its capacity and the terminator; the flag is right. *)
Definition wf (s : cstr) : Prop :=
  match s with
  | Short d => zlen d = 24 /\ exists v, cells d 23 [v] /\ 0 <= v < 128
  | Long d _ cap => zlen d = cap + 1 /\ 22 < cap < 2 ^ 63 - 1
  end.
(** [s] holds the byte string [l], zero-terminated. *)
Definition repr (s : cstr) (l : list Z) : Prop :=
  wf s /\ cells (sdata s) 0 (l ++ [0]) /\ ssize s = Ok (zlen l) /\ zlen l <= scap s.

(** Edits of a byte string. *)
Inductive op :=
| OAssign (b : list Z) | OAppend (b : list Z) | OAppendSelf (pos len : Z) | OInsert (pos : Z) (b : list Z) | OReplaceAt (pos len : Z) (b : list Z)
| OErase (pos len : Z) | OResize (n v : Z) | OReserve (n : Z) | OShrink | OPop | OClear | OAppendFmt (b : list Z) | OPrintf (b : list Z).
Definition step (s : cstr) (o : op) : res cstr :=
  match o with
  | OAssign b => assign_n s (Ext b)
  | OAppend b => append_n s (Ext b)
  | OAppendSelf pos len => append_n s (Self pos len)
  | OInsert pos b => insert s pos (Ext b)
  | OReplaceAt pos len b => replace_at s pos len (Ext b)
  | OErase pos len => erase s pos len
  | OResize n v => resize s n v
  | OReserve n => let* r := reserve s n in Ok (fst r)
  | OShrink => shrink_to_fit s
  | OPop => pop s
  | OClear => clear s
  | OAppendFmt b => append_fmt s b
  | OPrintf b => vfmt s 0 b
  end.
Fixpoint run (s : cstr) (h : list op) : res cstr :=
  match h with [] => Ok s | o :: h => let* s := step s o in run s h end.

(** Without the last character: its bytes 10xxxxxx and the one before them. *)
Definition cont_byte (b : Z) : bool := (0x80 <=? b) && (b <? 0xC0).
Fixpoint drop_char (r : list Z) : option (list Z) :=
  match r with [] => None | b :: r => if cont_byte b then drop_char r else Some r end.
Definition max_len : Z := 2 ^ 60.
(** The result of an edit; None where the operation does not allow the arguments. *)
Definition edit (l : list Z) (o : op) : option (list Z) :=
  let n := zlen l in
  match o with
  | OAssign b | OPrintf b => Some b
  | OAppend b | OAppendFmt b => Some (l ++ b)
  | OAppendSelf pos len => if (0 <=? pos) && (0 <=? len) && (pos + len <=? n) then Some (l ++ sub l pos len) else None
  | OInsert pos b => if (0 <=? pos) && (pos <=? n) then Some (firstn (Z.to_nat pos) l ++ b ++ skipn (Z.to_nat pos) l) else None
  | OReplaceAt pos len b => if (0 <=? pos) && (0 <=? len) && (pos + len <=? n) then Some (firstn (Z.to_nat pos) l ++ b ++ skipn (Z.to_nat (pos + len)) l) else None
  | OErase pos len => if (0 <=? pos) && (0 <=? len) && (pos <=? n) then Some (firstn (Z.to_nat pos) l ++ skipn (Z.to_nat (pos + len)) l) else None
  | OResize m v => if 0 <=? m then Some (firstn (Z.to_nat m) l ++ repeat v (Z.to_nat (m - n))) else None
  | OReserve m => if (0 <=? m) && (m <=? max_len) then Some l else None
  | OShrink => Some l
  | OPop => match drop_char (rev l) with Some r => Some (rev r) | None => None end
  | OClear => Some []
  end.
(** All intermediate strings no longer than [max_len]. *)
Fixpoint edits (l : list Z) (h : list op) : option (list Z) :=
  match h with
  | [] => Some l
  | o :: h => match edit l o with Some l' => if zlen l' <=? max_len then edits l' h else None | None => None end
  end.
Definition op_bytes (o : op) : Prop :=
  match o with
  | OAssign b | OAppend b | OInsert _ b | OReplaceAt _ _ b | OAppendFmt b | OPrintf b => Forall is_byte b
  | OResize _ v => is_byte v
  | _ => True
  end.

(** Replacing the first [n] occurrences, from left to right. *)
Inductive replaced (sep rep : list Z) : nat -> list Z -> list Z -> Prop :=
| rp_stop text : replaced sep rep 0 text text
| rp_none n text : first_at text sep None -> replaced sep rep n text text
| rp_next n t r out : first_at (t ++ sep ++ r) sep (Some (zlen t)) -> replaced sep rep n r out -> replaced sep rep (S n) (t ++ sep ++ r) (t ++ rep ++ out).

(** The lines of a stream: each one ends at a delimiter, the last one also at the end. *)
Inductive lines (delim : Z) : list Z -> list (list Z) -> Prop :=
| ln_eof : lines delim [] []
| ln_last l : l <> [] -> ~ In delim l -> lines delim l [l]
| ln_next line rest ls : ~ In delim line -> lines delim rest ls -> lines delim (line ++ delim :: rest) (line :: ls).
(** A client that reads line by line into one string until getdelim reports the end. *)
Fixpoint read_lines (fuel : nat) (s : cstr) (delim : Z) (io : list Z) : res (list (list Z)) :=
  match fuel with
  | O => Err OutOfFuel
  | S k =>
    let* r := getdelim s delim io in
    let '(s, io, more) := r in
    if more then
      let* n := ssize s in let* b := rds (sdata s) 0 n in
      let* ls := read_lines k s delim io in Ok (b :: ls)
    else Ok []
  end.

(** The simple case mapping of a code point: folding, to lower, to upper. *)
Definition case_of (k c : Z) : Z := if k =? 0 then casefold c else if k =? 1 then tolower c else toupper c.
