(** How patterns are written: their elements, the bytes of an element and the token it stands
    for.  Not here: \Q...\E, (?flags) and a - or [ as a member of a class that is not escaped. *)
From Coq Require Import String Ascii.
From Verif Require Import Base Utf8_Tab Utf8_Model Utf8_Spec Regex_Model Regex_Spec Recomp_Model Recomp_Spec.

(** What \c stands for if it is not c: a control character or a set. *)
Definition esc_values : list (Z * Z) :=
  [(97, 7); (116, 9); (110, 10); (118, 11); (102, 12); (114, 13);
   (100, UTF_GRP + 4); (68, UTF_GRP + 5); (115, UTF_al + 12); (83, UTF_al + 13); (119, UTF_al + 14); (87, UTF_al + 15)].
Definition esc_value (c : Z) : Z := match find (fun e => fst e =? c) esc_values with Some e => snd e | None => c end.
(** Sets by name: \p{name}, and [:name:] in a class. *)
Local Open Scope string_scope.
Fixpoint bytes (s : string) : list Z := match s with EmptyString => [] | String a s => Z.of_N (N_of_ascii a) :: bytes s end.
Definition set_names : list (list Z * Z) := map (fun e => (bytes (fst e), snd e))
  [("Alpha", UTF_al); ("Alnum", UTF_al + 2); ("Blank", UTF_al + 4); ("L&", UTF_al + 6); ("Lower", UTF_al + 8); ("Ll", UTF_al + 8);
   ("Upper", UTF_al + 10); ("Lu", UTF_al + 10); ("Space", UTF_al + 12); ("Word", UTF_al + 14); ("XDigit", ASC_an + 26);
   ("Cntrl", UTF_GRP); ("Cc", UTF_GRP); ("Lt", UTF_GRP + 2); ("Digit", UTF_GRP + 4); ("Nd", UTF_GRP + 4); ("Nl", UTF_GRP + 6);
   ("Pc", UTF_GRP + 8); ("Pd", UTF_GRP + 10); ("Pf", UTF_GRP + 12); ("Pi", UTF_GRP + 14); ("Sc", UTF_GRP + 16);
   ("Zl", UTF_GRP + 18); ("Zp", UTF_GRP + 20); ("Zs", UTF_GRP + 22); ("Arabic", UTF_GRP + 24); ("Bengali", UTF_GRP + 26);
   ("Cyrillic", UTF_GRP + 28); ("Devanagari", UTF_GRP + 30); ("Georgian", UTF_GRP + 32); ("Greek", UTF_GRP + 34);
   ("Han", UTF_GRP + 36); ("Hiragana", UTF_GRP + 38); ("Katakana", UTF_GRP + 40); ("Latin", UTF_GRP + 42); ("Thai", UTF_GRP + 44)].
Definition posix_names : list (list Z * Z) := map (fun e => (bytes (fst e), snd e))
  [("alnum", ASC_an); ("alpha", ASC_an + 2); ("ascii", ASC_an + 4); ("blank", ASC_an + 6); ("cntrl", ASC_an + 8); ("digit", ASC_an + 10);
   ("space", ASC_an + 12); ("word", ASC_an + 14); ("graph", ASC_an + 16); ("print", ASC_an + 18); ("punct", ASC_an + 20);
   ("lower", ASC_an + 22); ("upper", ASC_an + 24); ("xdigit", ASC_an + 26)].
Local Close Scope string_scope.
Definition zs_eqb (a b : list Z) : bool := if list_eq_dec Z.eq_dec a b then true else false.
Definition value_in (tab : list (list Z * Z)) (w : list Z) : Z := match find (fun e => zs_eqb (fst e) w) tab with Some e => snd e | None => 0 end.
(** Without case, the sets of upper and of lower case letters are that of the cased ones; the
    complement is next to a set. *)
Definition set_value (ic inv : bool) (w : list Z) : Z :=
  let v := value_in set_names w in (if ic && ((v =? UTF_al + 8) || (v =? UTF_al + 10)) then UTF_al + 6 else v) + Z.b2z inv.
Definition posix_value (ic inv : bool) (w : list Z) : Z :=
  let v := value_in posix_names w in (if ic && ((v =? ASC_an + 22) || (v =? ASC_an + 24)) then ASC_an + 2 else v) + Z.b2z inv.
Definition fold_ic (ic : bool) (c : Z) : Z := if ic then casefold c else c.

(** ** Members of a class *)
Inductive item :=
| IChr (c : Z)              (* c *)
| IEsc (c : Z)              (* \c *)
| IRange (a b : Z)          (* a-b *)
| ISet (inv : bool) (w : list Z)     (* \p{w} \P{w} *)
| IName (inv : bool) (w : list Z).   (* [:w:] [:^w:] *)
Definition spell_set (inv : bool) (w : list Z) : list Z := 92 :: (if inv then 80 else 112) :: 123 :: w ++ [125].
Definition char (c : Z) : Prop := scalar c /\ c <> 0.
Definition item_ok (i : item) : Prop :=
  match i with
  | IChr c => char c /\ ~ In c [92; 93; 45; 91]                  (* not \ ] - [ *)
  | IEsc c => char c /\ ~ In c [81; 120; 112; 80]                (* not \Q \x \p \P *)
  | IRange a b => char a /\ ~ In a [92; 93; 45; 91] /\ char b /\ ~ In b [92; 93]
  | ISet _ w => In w (map fst set_names)
  | IName _ w => In w (map fst posix_names)
  end.
Definition spell_item (i : item) : list Z :=
  match i with IChr c => enc c | IEsc c => 92 :: enc c | IRange a b => enc a ++ 45 :: enc b
  | ISet inv w => spell_set inv w | IName inv w => 91 :: 58 :: (if inv then [94] else []) ++ w ++ [58; 93] end.
Definition span_of (ic : bool) (i : item) : Z * Z :=
  match i with
  | IChr c => (fold_ic ic c, fold_ic ic c)
  | IEsc c => (fold_ic ic (esc_value c), fold_ic ic (esc_value c))
  | IRange a b => (fold_ic ic a, fold_ic ic b)
  | ISet inv w => (fold_ic ic (set_value ic inv w), fold_ic ic (set_value ic inv w))
  | IName inv w => (fold_ic ic (posix_value ic inv w), fold_ic ic (posix_value ic inv w))
  end.

(** ** Elements *)
Inductive elem :=
| SLit (c : Z)
| SEsc (c : Z)                                  (* \c *)
| SHex (ds : list Z)                            (* \x{ds} *)
| SBos | SEos | SEoz | SWord | SNword           (* \A \z \Z \b \B *)
| SBol | SEol | SDot | SStar | SPlus | SQuest | SBar | SOpen | SClose
| SClass (neg : bool) (its : list item)
| SSet (inv : bool) (w : list Z).               (* \p{w} \P{w} *)
Fixpoint hex_value (acc : Z) (ds : list Z) : option Z :=
  match ds with
  | [] => Some acc
  | d :: ds => match hexdig d with Some v => hex_value (acc * 16 + v) ds | None => None end
  end.
(** The letters that mean something after a \. *)
Definition esc_letters : list Z := map fst esc_values ++ [98; 66; 65; 122; 90; 112; 80].
Definition elem_ok (e : elem) : Prop :=
  match e with
  | SLit c => char c /\ ~ In c [92; 42; 63; 43; 124; 94; 36; 46; 91; 40; 41]
  | SEsc c => char c /\ ~ In c [81; 120; 98; 66; 65; 122; 90; 112; 80]
  | SHex ds => ds <> [] /\ exists v, hex_value 0 ds = Some v /\ v < 2 ^ 32 /\ ~ In v esc_letters
  | SClass neg its =>
      Forall item_ok its /\ zlen its <= (if neg then 30 else 31) /\
      (neg = false -> match its with IChr 94 :: _ | IRange 94 _ :: _ => False | _ => True end)
  | SSet _ w => In w (map fst set_names)
  | _ => True
  end.
Definition spell (e : elem) : list Z :=
  match e with
  | SLit c => enc c
  | SEsc c => 92 :: enc c
  | SHex ds => [92; 120; 123] ++ ds ++ [125]
  | SBos => [92; 65] | SEos => [92; 122] | SEoz => [92; 90] | SWord => [92; 98] | SNword => [92; 66]
  | SBol => [94] | SEol => [36] | SDot => [46] | SStar => [42] | SPlus => [43] | SQuest => [63] | SBar => [124] | SOpen => [40] | SClose => [41]
  | SClass neg its => 91 :: (if neg then [94] else []) ++ flat_map spell_item its ++ [93]
  | SSet inv w => spell_set inv w
  end.
Definition rune (ic : bool) (c : Z) : token := KOp (if ic then IRUNE (casefold c) else RUNE c).
Definition written (ic neg : bool) (its : list item) : list (Z * Z) := (if neg then [(10, 10)] else []) ++ map (span_of ic) its.
(** The spans of a class token match what the written ones match: for all [rm] that give the
    tokens of sets a meaning, where no written range contains such a token. *)
Definition set_tok (a : Z) : Prop := ASC_an <= a <= UTF_GRP + 45.
Definition same_spans (sp sp' : list (Z * Z)) : Prop :=
  (forall a b, In (a, b) sp' -> (a < b -> b < ASC_an)) ->
  forall rm r, (forall a x, ~ set_tok a -> rm a x = Ok true -> x = a) -> in_spans rm sp r <-> in_spans rm sp' r.
Definition elem_tok (ic dn : bool) (e : elem) (t : token) : Prop :=
  match e with
  | SLit c => t = rune ic c
  | SEsc c => t = rune ic (esc_value c)
  | SHex ds => exists v, hex_value 0 ds = Some v /\ t = rune ic v
  | SBos => t = KOp BOS | SEos => t = KOp EOS | SEoz => t = KOp EOZ | SWord => t = KOp WBOUND | SNword => t = KOp NWBOUND
  | SBol => t = KOp BOL | SEol => t = KOp EOL | SDot => t = KOp (if dn then ANYNL else ANY)
  | SStar => t = KAtor AStar | SPlus => t = KAtor APlus | SQuest => t = KAtor AQuest | SBar => t = KAtor AOr | SOpen => t = KAtor ALbra | SClose => t = KRbra
  | SClass neg its => exists sp, t = KOp (if neg then NCCLASS sp else CCLASS sp) /\ same_spans sp (written ic neg its)
  | SSet inv w => t = rune ic (set_value ic inv w)
  end.
(** ( is not followed by ?. *)
Fixpoint no_flags (es : list elem) : Prop := match es with SOpen :: SQuest :: _ => False | _ :: es => no_flags es | [] => True end.
Definition is_class (e : elem) : bool := match e with SClass _ _ => true | _ => false end.
Definition pattern (es : list elem) (p : list Z) : Prop :=
  p = flat_map spell es /\ Forall elem_ok es /\ no_flags es /\ zlen (filter is_class es) <= 16.
