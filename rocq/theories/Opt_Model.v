(** Model of include/stc/coption.h: coption_get.  A C string is the list of its characters, without
    the terminating 0 (characters are the values of type char, so they may be negative); argv holds
    the strings themselves in place of pointers to them. *)
From Verif Require Import Base.

Definition str := list Z.
(** s[k]: the terminator can be read, nothing after it. *)
Definition ch (s : str) (k : Z) : res Z := if k =? zlen s then Ok 0 else aget s k.
Definition chDash := 45. Definition chEq := 61. Definition chQ := 63. Definition chColon := 58. Definition chPlus := 43.

(** coption.h 68-78 coption_type, coption_long. *)
Inductive otype := NoArg | ReqArg | OptArg.
Definition is_noarg (t : otype) : bool := match t with NoArg => true | _ => false end.
Definition is_reqarg (t : otype) : bool := match t with ReqArg => true | _ => false end.
Record lopt := mklo { lname : str; ltype : otype; lval : Z }.
(** coption.h 80-87 struct coption.  optstr and arg are the strings pointed to (None: NULL). *)
Record coption := mkco { oind : Z; oopt : Z; optstr : option str; oarg : option str; oi : Z; opos : Z; onargs : Z }.
(** coption.h 89-92 *)
Definition coption_init : coption := mkco 1 0 None None 1 0 0.

(** coption.h 98-99 the loop of coption_permute_: [n] times from [k]. *)
Fixpoint shift (argv : list str) (j k : Z) (n : nat) : res (list str) :=
  match n with
  | O => Ok argv
  | S n' => let* x := aget argv (j - k - 1) in let* argv1 := aset argv (j - k) x in shift argv1 j (k + 1) n'
  end.
(** coption.h 95-101 *)
Definition permute (argv : list str) (j n : Z) : res (list str) :=
  let* p := aget argv j in let* argv1 := shift argv j 0 (Z.to_nat n) in aset argv1 (j - Z.max 0 n) p.
(** argv[i][0] != '-' || argv[i][1] == 0 *)
Definition nonopt (s : str) : res bool := let* c0 := ch s 0 in if negb (c0 =? chDash) then Ok true else let* c1 := ch s 1 in Ok (c1 =? 0).
(** coption.h 112-113: skip non-options; [fuel] bounds the remaining arguments. *)
Fixpoint skip (argv : list str) (argc i nargs : Z) (fuel : nat) : res (Z * Z) :=
  if i <? argc then
    let* s := aget argv i in let* b := nonopt s in
    if b then match fuel with O => Err OutOfFuel | S f => skip argv argc (i + 1) (nargs + 1) f end else Ok (i, nargs)
  else Ok (i, nargs).
(** coption.h 130: the end of the option name. *)
Fixpoint name_end (s : str) (j : Z) (fuel : nat) : res Z :=
  let* c := ch s j in
  if negb (c =? 0) && negb (c =? chEq) then match fuel with O => Err OutOfFuel | S f => name_end s (j + 1) f end else Ok j.
(** strncmp(a, b, n) == 0 *)
Fixpoint strncmp0 (a b : str) (n : nat) {struct n} : bool :=
  match n with
  | O => true
  | S n' => match a, b with [], [] => true | x :: a', y :: b' => if x =? y then strncmp0 a' b' n' else false | _, _ => false end
  end.
(** coption.h 131-135: count the exact and the partial matches and keep the last of each. *)
Fixpoint match_long (arg : str) (j : Z) (los : list lopt) (ne np : Z) (oe op : option lopt) : res (Z * Z * option lopt * option lopt) :=
  match los with
  | [] => Ok (ne, np, oe, op)
  | o :: t =>
      if strncmp0 (skipn 2 arg) (lname o) (Z.to_nat (j - 2)) then
        let* c := ch (lname o) (j - 2) in
        if c =? 0 then match_long arg j t (ne + 1) np (Some o) op else match_long arg j t ne (np + 1) oe (Some o)
      else match_long arg j t ne np oe op
  end.
(** strchr *)
Fixpoint strchr (s : str) (c : Z) : option Z :=
  match s with
  | [] => if c =? 0 then Some 0 else None
  | x :: t => if x =? c then Some 0 else match strchr t c with Some k => Some (k + 1) | None => None end
  end.
(** s + k, for a pointer inside s. *)
Definition suffix (s : str) (k : Z) : str := skipn (Z.to_nat k) s.
(** coption.h 172-174: permute positions j .. i-1. *)
Fixpoint permutes (argv : list str) (j nargs : Z) (n : nat) : res (list str) :=
  match n with O => Ok argv | S n' => let* a := permute argv j nargs in permutes a (j + 1) nargs n' end.
(** coption.h 170-177: the end of coption_get. *)
Definition finish (argv : list str) (i0 optc : Z) (o : coption) : res (Z * coption * list str) :=
  let* adv := if opos o <? 0 then Ok true else let* s := aget argv (oi o) in let* c := ch s (opos o) in Ok (c =? 0) in
  if adv then
    let i' := oi o + 1 in
    let* argv' := if 0 <? onargs o then permutes argv i0 (onargs o) (Z.to_nat (i' - i0)) else Ok argv in
    Ok (optc, mkco (i' - onargs o) (oopt o) (optstr o) (oarg o) i' 0 (onargs o), argv')
  else Ok (optc, mkco (oi o - onargs o) (oopt o) (optstr o) (oarg o) (oi o) (opos o) (onargs o), argv).

(** coption.h 127-151: a long option in argv[i] = [s]. *)
Definition get_long (o : coption) (argv : list str) (los : option (list lopt)) (i nargs : Z) (s : str) : res (Z * coption * list str) :=
  let argc := zlen argv in
  match los with
  | None => finish argv i chQ (mkco (oind o) 0 None None i (-1) nargs)
  | Some ls =>
      let* j := name_end s 2 (length s) in
      let* (ne, np, oe, op) := match_long s j ls 0 0 None None in
      if (1 <? ne) || ((ne =? 0) && (1 <? np)) then Ok (chQ, mkco (oind o) 0 (Some s) None i (-1) nargs, argv) else
      match (if ne =? 1 then oe else if np =? 1 then op else None) with
      | None => finish argv i chQ (mkco (oind o) 0 (Some s) None i (-1) nargs)
      | Some l =>
          if is_noarg (ltype l) then finish argv i (lval l) (mkco (oind o) (lval l) (Some s) None i (-1) nargs) else
          let* cj := ch s j in
          if cj =? chEq then finish argv i (lval l) (mkco (oind o) (lval l) (Some s) (Some (suffix s (j + 1))) i (-1) nargs) else
          let* next := if (cj =? 0) && (i <? argc - 1) then
                         (if is_reqarg (ltype l) then Ok true else let* n := aget argv (i + 1) in let* c := ch n 0 in Ok (negb (c =? chDash)))
                       else Ok false in
          if next : bool then
            let* n := aget argv (i + 1) in
            finish argv i (lval l) (mkco (oind o) (lval l) (Some s) (Some n) (i + 1) (-1) nargs)
          else if is_reqarg (ltype l) then finish argv i chColon (mkco (oind o) (lval l) (Some s) None i (-1) nargs)
          else finish argv i (lval l) (mkco (oind o) (lval l) (Some s) None i (-1) nargs)
      end
  end.
(** coption.h 152-169: a short option in argv[i] = [s]. *)
Definition get_short (o : coption) (argv : list str) (so : option str) (i nargs : Z) (s : str) : res (Z * coption * list str) :=
  let argc := zlen argv in
  match so with
  | None => finish argv i (-1) (mkco (oind o) 0 None None i (opos o) nargs)
  | Some sh =>
      let pos1 := if opos o =? 0 then 1 else opos o in
      let* c := ch s pos1 in
      let pos2 := pos1 + 1 in
      let os := Some [chDash; c] in
      match strchr sh c with
      | None => finish argv i chQ (mkco (oind o) c os None i pos2 nargs)
      | Some p =>
          let* p1 := ch sh (p + 1) in
          if p1 =? chColon then
            let* cr := ch s pos2 in
            if negb (cr =? 0) then finish argv i c (mkco (oind o) c os (Some (suffix s pos2)) i (-1) nargs) else
            let* p2 := ch sh (p + 2) in
            let* next := if i <? argc - 1 then
                           (if negb (p2 =? chColon) then Ok true else let* n := aget argv (i + 1) in let* c := ch n 0 in Ok (negb (c =? chDash)))
                         else Ok false in
            if next : bool then
              let* n := aget argv (i + 1) in
              finish argv i c (mkco (oind o) c os (Some n) (i + 1) (-1) nargs)
            else finish argv i (if negb (p2 =? chColon) then chColon else c) (mkco (oind o) c os None i (-1) nargs)
          else finish argv i c (mkco (oind o) c os None i pos2 nargs)
      end
  end.
(** coption.h 108-178 coption_get: the return value, the struct and argv after the call.
    [None] for shortopts or longopts is NULL. *)
Definition get (o : coption) (argv : list str) (so : option str) (los : option (list lopt)) : res (Z * coption * list str) :=
  let argc := zlen argv in
  let* posix := match so with None => Ok false | Some s => let* c := ch s 0 in Ok (c =? chPlus) end in
  let* (i, nargs) := if posix : bool then Ok (oi o, onargs o) else skip argv argc (oi o) (onargs o) (length argv) in
  let* stop := if argc <=? i then Ok true else let* s := aget argv i in nonopt s in
  if stop : bool then Ok (-1, mkco (i - nargs) 0 None None i (opos o) nargs, argv) else
  let* s := aget argv i in
  let* c1 := ch s 1 in
  if c1 =? chDash then
    let* c2 := ch s 2 in
    if c2 =? 0 then
      let* argv' := permute argv i nargs in
      Ok (-1, mkco (i + 1 - nargs) 0 None None (i + 1) (opos o) nargs, argv')
    else get_long o argv los i nargs s
  else get_short o argv so i nargs s.

(** What the client sees of a call: return value, opt, optstr, arg. *)
Record event := mkev { eret : Z; eopt : Z; estr : option str; earg : option str }.
(** The documented use: call until -1 (coption.h 48); [fuel] calls. *)
Fixpoint loop (o : coption) (argv : list str) (so : option str) (los : option (list lopt)) (fuel : nat) : res (list event * coption * list str) :=
  match fuel with
  | O => Err OutOfFuel
  | S f =>
      let* (r, o', argv') := get o argv so los in
      if r =? -1 then Ok ([], o', argv') else
      let* (es, o2, argv2) := loop o' argv' so los f in
      Ok (mkev r (oopt o') (optstr o') (oarg o') :: es, o2, argv2)
  end.
(** The client that stops at the first error, as in the header comment (coption.h 48-54). *)
Fixpoint loop_stop (o : coption) (argv : list str) (so : option str) (los : option (list lopt)) (fuel : nat) : res (list event * coption * list str) :=
  match fuel with
  | O => Err OutOfFuel
  | S f =>
      let* (r, o', argv') := get o argv so los in
      if r =? -1 then Ok ([], o', argv') else
      let e := mkev r (oopt o') (optstr o') (oarg o') in
      if (r =? chQ) || (r =? chColon) then Ok ([e], o', argv') else
      let* (es, o2, argv2) := loop_stop o' argv' so los f in
      Ok (e :: es, o2, argv2)
  end.
(** At most [n] calls, ending earlier if -1 is returned. *)
Fixpoint calls (o : coption) (argv : list str) (so : option str) (los : option (list lopt)) (n : nat) : res (list event * coption * list str) :=
  match n with
  | O => Ok ([], o, argv)
  | S n' =>
      let* (r, o', argv') := get o argv so los in
      if r =? -1 then Ok ([], o', argv') else
      let* (es, o2, argv2) := calls o' argv' so los n' in
      Ok (mkev r (oopt o') (optstr o') (oarg o') :: es, o2, argv2)
  end.
