(** What a format string of fmt.h means (comment in fmt.h 9-24), and how printf reads one. *)
From Coq Require Import String.
From Verif Require Import Base Fmt_Model.

(** A well-formed format: characters, escaped braces, '%', and fields {} or {:mods}. *)
Inductive tok :=
| TLit (c : Z)
| TPct
| TOpen
| TClose
| TField (mods : option str).

Definition plain (c : Z) : Prop := c <> 0 /\ c <> chPct /\ c <> chOpen /\ c <> chClose.
Definition tok_ok (t : tok) : Prop :=
  match t with
  | TLit c => plain c
  | TField (Some m) => Forall (fun c => c <> 0 /\ c <> chClose) m
  | _ => True
  end.
Definition write1 (t : tok) : str :=
  match t with
  | TLit c => [c]
  | TPct => bs "%"
  | TOpen => bs "{{"
  | TClose => bs "}}"
  | TField None => bs "{}"
  | TField (Some m) => bs "{:" ++ m ++ bs "}"
  end.
Definition write (ts : list tok) : str := flat_map write1 ts.

(** Arguments used: one per field, and one for each '*' in it. *)
Definition stars (m : str) : Z := zlen (filter (Z.eqb chStar) m).
Definition mods_of (o : option str) : str := match o with Some m => m | None => [] end.
Definition uses1 (t : tok) : Z := match t with TField o => 1 + stars (mods_of o) | _ => 0 end.
Fixpoint uses (ts : list tok) : Z := match ts with [] => 0 | t :: r => uses1 t + uses r end.

(** The printf directive for a field with modifiers [m] whose value has code [code]. *)
Definition drop_align (c : Z) : str :=
  if c =? chLt then bs "-" else if c =? chGt then [] else if c =? chDash then [] else [c].
Definition type_of (code : str) : str := match code with c :: r => if c =? chAt then r else code | [] => [] end.
Definition default_prec (m code : str) : str :=
  match m, code with
  | [], c :: _ => if c =? chG then bs ".8" else if c =? chAt then bs ".16" else []
  | _, _ => []
  end.
Definition conversion (c : Z) : bool := existsb (Z.eqb c) (bs "csdioxXufFeEaAgGnp").
Definition has_conversion (m : str) : bool := conversion (last m 0).
Definition dir_type (m code : str) : str := if has_conversion m then [] else type_of code.
Definition directive (m code : str) : str :=
  let d := flat_map drop_align m ++ default_prec m code ++ dir_type m code in
  let left := negb (existsb (Z.eqb chGt) m) && ((last d 0 =? chS) || (last d 0 =? chC)) in
  bs "%" ++ (if left then bs "-" else []) ++ d.

(** The translation of a format to a printf format. *)
Fixpoint translate (ts : list tok) (codes : list str) : str :=
  match ts with
  | [] => []
  | t :: r =>
    match t with
    | TLit c => [c]
    | TPct => bs "%%"
    | TOpen => bs "{"
    | TClose => bs "}"
    | TField o => directive (mods_of o) (nth (Z.to_nat (stars (mods_of o))) codes [])
    end ++ translate r (skipn (Z.to_nat (uses1 t)) codes)
  end.

(** How printf reads its format: characters to print and directives, given by their flags,
    width and precision, and by their length modifier with the conversion. *)
Inductive item := ILit (c : Z) | IDir (flags : str) (type : str).
Definition flag_char (c : Z) : bool := existsb (Z.eqb c) (bs "-+ #0123456789.*").
Definition len_char (c : Z) : bool := existsb (Z.eqb c) (bs "hlL").
Fixpoint printf_items (st : option (str * str)) (s : str) : option (list item) :=
  match s with
  | [] => match st with None => Some [] | Some _ => None end
  | c :: r =>
    match st with
    | None => if c =? chPct then printf_items (Some ([], [])) r
              else option_map (cons (ILit c)) (printf_items None r)
    | Some (m, l) =>
      if c =? chPct then match m, l with [], [] => option_map (cons (ILit chPct)) (printf_items None r) | _, _ => None end
      else if flag_char c then match l with [] => printf_items (Some (m ++ [c], l)) r | _ => None end
      else if len_char c then printf_items (Some (m, l ++ [c])) r
      else if conversion c then option_map (cons (IDir m (l ++ [c]))) (printf_items None r)
      else None
    end
  end.

(** What a format asks for.  A field whose modifiers do not name a conversion prints its
    value with the length and conversion of the value's own type. *)
Definition mod_char (c : Z) : bool := flag_char c || (c =? chLt) || (c =? chGt).
Inductive good_mods : str -> Prop :=
| good_plain m : Forall (fun c => mod_char c = true) m -> good_mods m
| good_conv m ls c : Forall (fun c => mod_char c = true) m -> Forall (fun c => len_char c = true) ls ->
    conversion c = true -> good_mods (m ++ ls ++ [c]).
Definition item_type (m code : str) : str :=
  if has_conversion m then filter (fun c => negb (mod_char c)) m else type_of code.
Definition flags_of (m code : str) : str :=
  let left := negb (existsb (Z.eqb chGt) m) && existsb (Z.eqb (last (item_type m code) 0)) [chS; chC] in
  (if left then bs "-" else []) ++ flat_map drop_align (filter mod_char m) ++ default_prec m code.
Fixpoint items (ts : list tok) (codes : list str) : list item :=
  match ts with
  | [] => []
  | t :: r =>
    match t with
    | TLit c => ILit c
    | TPct => ILit chPct
    | TOpen => ILit chOpen
    | TClose => ILit chClose
    | TField o => let code := nth (Z.to_nat (stars (mods_of o))) codes [] in
                  IDir (flags_of (mods_of o) code) (item_type (mods_of o) code)
    end :: items r (skipn (Z.to_nat (uses1 t)) codes)
  end.
Definition tok_good (t : tok) : Prop := match t with TField o => good_mods (mods_of o) | _ => True end.
