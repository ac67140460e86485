(** What a command line means, read from left to right. *)
From Verif Require Import Base Opt_Model.

Section Spec.
(** shortopts and longopts *)
Variables (so : option str) (los : option (list lopt)).
Definition posix : bool := match so with Some (c :: _) => c =? chPlus | _ => false end.
(** An argument that is no option: it does not begin with '-', or it is "-". *)
Definition plain (s : str) : bool := match s with [] => true | [_] => true | c :: _ => negb (c =? chDash) end.
Definition dashed (s : str) : bool := match s with c :: _ => c =? chDash | [] => false end.
(** What is written after the first occurrence of [c]. *)
Fixpoint after (s : str) (c : Z) : option str :=
  match s with [] => None | x :: t => if x =? c then Some t else after t c end.
(** No argument, a required one, an optional one (None: unknown option). *)
Definition short_type (sh : str) (c : Z) : option otype :=
  match after sh c with
  | None => None
  | Some (a :: b :: _) => Some (if a =? chColon then if b =? chColon then OptArg else ReqArg else NoArg)
  | Some [a] => Some (if a =? chColon then ReqArg else NoArg)
  | Some [] => Some NoArg
  end.
(** The options in a group "-abc", when the next argument of the command line is [next]; and
    whether that argument is taken. *)
Fixpoint group (sh : str) (next : option str) (cs : str) : list event * bool :=
  match cs with
  | [] => ([], false)
  | c :: t =>
      let ev r a := mkev r c (Some [chDash; c]) a in
      match short_type sh c with
      | None => let (es, b) := group sh next t in (ev chQ None :: es, b)
      | Some NoArg => let (es, b) := group sh next t in (ev c None :: es, b)
      | Some ty =>
          match t, next, ty with
          | _ :: _, _, _ => ([ev c (Some t)], false)
          | [], Some n, ReqArg => ([ev c (Some n)], true)
          | [], Some n, _ => if dashed n then ([ev c None], false) else ([ev c (Some n)], true)
          | [], None, ReqArg => ([ev chColon None], false)
          | [], None, _ => ([ev c None], false)
          end
      end
  end.
(** "name=value" *)
Fixpoint split_eq (s : str) : str * option str :=
  match s with
  | [] => ([], None)
  | c :: t => if c =? chEq then ([], Some t) else let (n, v) := split_eq t in (c :: n, v)
  end.
Fixpoint prefix (p s : str) : bool :=
  match p, s with [], _ => true | x :: p', y :: s' => (x =? y) && prefix p' s' | _ :: _, [] => false end.
Definition exact (n : str) (l : lopt) : bool := prefix n (lname l) && (zlen n =? zlen (lname l)).
Definition partial (n : str) (l : lopt) : bool := prefix n (lname l) && (zlen n <? zlen (lname l)).
(** The option meant by a name: None if the name is ambiguous, Some None if unknown. *)
Definition lookup (ls : list lopt) (n : str) : option (option lopt) :=
  match filter (exact n) ls with
  | [l] => Some (Some l)
  | _ :: _ => None
  | [] => match filter (partial n) ls with [l] => Some (Some l) | _ :: _ => None | [] => Some None end
  end.
(** A long option [a] = "--name" or "--name=value". *)
Definition long (a : str) (next : option str) : option (event * bool) :=
  match los with
  | None => Some (mkev chQ 0 None None, false)
  | Some ls =>
      let (n, v) := split_eq (skipn 2 a) in
      match lookup ls n with
      | None => None
      | Some None => Some (mkev chQ 0 (Some a) None, false)
      | Some (Some l) =>
          let ev r x := mkev r (lval l) (Some a) x in
          match ltype l, v, next with
          | NoArg, _, _ => Some (ev (lval l) None, false)
          | _, Some x, _ => Some (ev (lval l) (Some x), false)
          | ReqArg, None, Some n => Some (ev (lval l) (Some n), true)
          | ReqArg, None, None => Some (ev chColon None, false)
          | OptArg, None, Some n => Some (if dashed n then (ev (lval l) None, false) else (ev (lval l) (Some n), true))
          | OptArg, None, None => Some (ev (lval l) None, false)
          end
      end
  end.
(** The meaning of a command line: the options in order; the arguments that are options or belong
    to options; the non-options before the end of the options; the arguments after it; and whether
    an ambiguous long option was met. *)
Record outcome := mkout { evs : list event; taken : list str; others : list str; rest : list str; stuck : bool }.
Definition add (es : list event) (ts ns : list str) (x : outcome) : outcome :=
  mkout (es ++ evs x) (ts ++ taken x) (ns ++ others x) (rest x) (stuck x).
Definition is_short (a : str) : bool := match a with _ :: c :: _ => negb (c =? chDash) | _ => true end.
Fixpoint parse (args : list str) : outcome :=
  match args with
  | [] => mkout [] [] [] [] false
  | a :: t =>
      if plain a then if posix then mkout [] [] [] args false else add [] [] [a] (parse t) else
      match skipn 2 a, is_short a with
      | [], false => mkout [] [a] [] t false
      | _, false =>
          match long a (hd_error t) with
          | None => mkout [mkev chQ 0 (Some a) None] [] [] args true
          | Some (e, true) => match t with n :: t' => add [e] [a; n] [] (parse t') | [] => add [e] [a] [] (parse t) end
          | Some (e, false) => add [e] [a] [] (parse t)
          end
      | _, true =>
          match so with
          | None => mkout [] [] [] args false
          | Some sh =>
              match group sh (hd_error t) (tl a) with
              | (es, true) => match t with n :: t' => add es [a; n] [] (parse t') | [] => add es [a] [] (parse t) end
              | (es, false) => add es [a] [] (parse t)
              end
          end
      end
  end.
(** -1 is no option. *)
Definition no_end : Prop := (forall ls l, los = Some ls -> In l ls -> lval l <> -1) /\ (forall sh, so = Some sh -> ~ In (-1) sh).
End Spec.
(** C strings have no 0 inside. *)
Definition strings (l : list str) : Prop := Forall (Forall (fun c => c <> 0)) l.
(** Up to and including the first error. *)
Fixpoint upto_error (es : list event) : list event :=
  match es with [] => [] | e :: t => if (eret e =? chQ) || (eret e =? chColon) then [e] else e :: upto_error t end.
(** [l] interleaves [l1] and [l2], each in its own order. *)
Inductive merge {A} : list A -> list A -> list A -> Prop :=
| merge_nil : merge [] [] []
| merge_l x l1 l2 l : merge l1 l2 l -> merge (x :: l1) l2 (x :: l)
| merge_r x l1 l2 l : merge l1 l2 l -> merge l1 (x :: l2) (x :: l).
