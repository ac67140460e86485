(** Specification of UTF-8 (Unicode 15, table 3-6), in plain arithmetic. *)
From Verif Require Import Base.

(** Unicode scalar values: no surrogates, at most U+10FFFF. *)
Definition scalar (c : Z) : Prop := 0 <= c < 0xD800 \/ 0xE000 <= c < 0x110000.
(** The bytes of a scalar value. *)
Definition enc (c : Z) : list Z :=
  if c <? 128 then [c]
  else if c <? 2048 then [0xC0 + c / 64; 0x80 + c mod 64]
  else if c <? 65536 then [0xE0 + c / 4096; 0x80 + c / 64 mod 64; 0x80 + c mod 64]
  else [0xF0 + c / 262144; 0x80 + c / 4096 mod 64; 0x80 + c / 64 mod 64; 0x80 + c mod 64].
Definition enc_all (cs : list Z) : list Z := flat_map enc cs.
Definition well_formed (l : list Z) : Prop := exists cs, Forall scalar cs /\ l = enc_all cs.
Definition is_byte (b : Z) : Prop := 0 <= b < 256.

(** [m] holds the bytes [l] from index [p]; with a 0 after them and none in them. *)
Definition holds_at (m : list Z) (p : Z) (l : list Z) : Prop :=
  exists pre post, m = pre ++ l ++ post /\ p = zlen pre.
Definition zstring (m : list Z) (p : Z) (l : list Z) : Prop :=
  ~ In 0 l /\ holds_at m p (l ++ [0]).
(** byte offset of the k-th code point *)
Definition cp_offset (cs : list Z) (k : nat) : Z := zlen (enc_all (firstn k cs)).
(** Decoding arbitrary bytes: each well-formed sequence gives its scalar value; at a place
    where none starts, one or more bytes give U+FFFD, and only continuation bytes follow
    the first of them, so that no well-formed sequence is lost. *)
Inductive decodes : list Z -> list Z -> Prop :=
| dec_nil : decodes [] []
| dec_ok c l cs : scalar c -> decodes l cs -> decodes (enc c ++ l) (c :: cs)
| dec_bad b x l cs : (forall c r, scalar c -> b :: x ++ l <> enc c ++ r) -> Forall (fun y => 0x80 <= y < 0xC0) x ->
    decodes l cs -> decodes (b :: x ++ l) (0xFFFD :: cs).

(** Lexicographic order. *)
Fixpoint lex (a b : list Z) : comparison :=
  match a, b with
  | [], [] => Eq
  | [], _ :: _ => Lt
  | _ :: _, [] => Gt
  | x :: a, y :: b => match x ?= y with Eq => lex a b | r => r end
  end.
