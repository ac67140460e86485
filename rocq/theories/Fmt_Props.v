(** c11/fmt.h: C88 (format strings), C89 (fmt_stream). *)
From Coq Require Import String.
From Verif Require Import Base Slots Fmt_Model Fmt_Spec Fmt_Proofs Fmt_Proofs2 Fmt_Proofs3 Fmt_Proofs4.

Lemma codes_of types : Forall is_code (map fc types) /\ Forall nonul (map fc types) /\ Forall (fun c => zlen c <= 3) (map fc types).
Proof.
  repeat split; induction types as [|t r IH]; cbn [map]; constructor; auto using fc_nonul, fc_short. now exists t.
Qed.

(** C88, whatever the string: with a buffer that is large enough for any output, parsing reads
    only the string and the arguments passed, and it reports the number of arguments iff the
    format is well formed and uses all of them. *)
Theorem C88_accepts (size : Z) (fmt : str) (types : list ctype) :
  Forall (fun c => c <> 0) fmt -> zlen types < 99 -> 2 * zlen fmt + 8 * zlen types + 1 <= size ->
  exists buf r, fmt_parse size fmt (map fc types) = Ok (buf, r) /\
    (r = zlen types <-> exists ts, Forall tok_ok ts /\ fmt = write ts /\ uses ts = zlen types).
Proof.
  intros NF H99 Hs. destruct (codes_of types) as (C1 & C2 & C3).
  pose proof (zlen_nonneg types). rewrite <- (zlen_map fc types) in *.
  pose proof (parse_bound (zlen (map fc types)) ltac:(lia) (S (length fmt)) fmt 0 (map fc types) C3) as B.
  destruct (parse_all size fmt (map fc types) NF H99) as (bf & E & _); [lia|].
  do 2 eexists. split; [exact E|]. split.
  - intros R. destruct (parse_sound _ H99 _ _ _ _ (le_n _) NF R) as (ts & T1 & T2 & T3).
    exists ts. split; [exact T1|]. split; [exact T2|]. lia.
  - intros (ts & T1 & -> & T3). rewrite (parse_write (zlen (map fc types))); auto; lia.
Qed.

(** C88, well-formed formats: the buffer receives exactly the translation to a printf format. *)
Theorem C88_translates (size : Z) (ts : list tok) (types : list ctype) :
  Forall tok_ok ts -> uses ts = zlen types -> zlen types < 99 -> zlen (translate ts (map fc types)) < size ->
  exists buf, fmt_parse size (write ts) (map fc types) = Ok (buf, zlen types) /\
    cstring buf = Ok (translate ts (map fc types)).
Proof.
  intros HO HU H99 Hs. destruct (codes_of types) as (C1 & C2 & C3).
  rewrite <- (zlen_map fc types) in *.
  assert (EP : parse (S (length (write ts))) (zlen (map fc types)) (write ts) 0 (map fc types) = (translate ts (map fc types), zlen (map fc types)))
    by (apply parse_write; auto; lia).
  destruct (parse_all size (write ts) (map fc types) (write_nonul _ HO) H99) as (bf & E & Hh & _); [rewrite EP; cbn [fst]; lia|].
  rewrite EP in *. cbn [fst snd] in *. exists bf. split; [exact E|]. apply cstring_holds; auto. now apply translate_nonul.
Qed.

(** C88: what printf then does.  It prints '{', '}' and '%' for {{, }} and %, and prints each
    value with a directive that has the flags of its field and, unless the field names a
    conversion itself, the length and conversion of the value's own type. *)
Theorem C88_printf (ts : list tok) (types : list ctype) :
  Forall tok_ok ts -> Forall tok_good ts -> uses ts <= zlen types ->
  printf_items None (translate ts (map fc types)) = Some (items ts (map fc types)).
Proof.
  intros HO HG HU. destruct (codes_of types) as (C1 & _ & _). apply pf_translate; auto. now rewrite zlen_map.
Qed.

(** C88: fmt_print and friends with at least one argument, when the format, one more byte for
    each '%' and four for each argument fit into FMT_MAX. *)
Theorem C88_print_partial (ts : list tok) (types : list ctype) :
  Forall tok_ok ts -> Forall tok_good ts -> uses ts = zlen types -> types <> [] ->
  zlen (write ts) + percents (write ts) + 4 * zlen types < fmt_max ->
  exists s, printd (write ts) types = Ok s /\ printf_items None s = Some (items ts (map fc types)).
Proof.
  intros HO HG HU Hne Hs. destruct (codes_of types) as (C1 & _ & _).
  pose proof (translate_len ts HO (map fc types) C1) as B. rewrite zlen_map in B. specialize (B ltac:(lia)).
  pose proof (zlen_nonneg (write ts)). pose proof (zlen_nonneg (filter (Z.eqb chPct) (write ts))). unfold percents in *.
  pose proof (zlen_nonneg types).
  destruct (C88_translates fmt_max ts types HO HU) as (bf & E & C); [unfold fmt_max in *; lia|lia|].
  exists (translate ts (map fc types)). split; [|apply C88_printf; auto; lia].
  unfold printd. rewrite E. cbn [bind fst snd]. rewrite Z.eqb_refl. cbn [negb]. destruct types; [congruence|exact C].
Qed.

Definition demo_toks : list tok :=
  [TLit 65; TOpen; TField None; TClose; TPct; TField (Some (bs ">6.*")); TField (Some (bs "<08llx")); TField None].
Definition demo_types : list ctype := [TStr; TInt; TLDouble; TULLong; TDouble].
Example C88_print_met :
  Forall tok_ok demo_toks /\ Forall tok_good demo_toks /\ uses demo_toks = zlen demo_types /\
  zlen (write demo_toks) + percents (write demo_toks) + 4 * zlen demo_types < fmt_max /\
  write demo_toks = bs "A{{{}}}%{:>6.*}{:<08llx}{}" /\
  printd (write demo_toks) demo_types = Ok (bs "A{%-s}%%%6.*Lg%-08llx%.16g").
Proof.
  split; [repeat constructor; discriminate|]. split.
  { repeat (constructor; [try exact Logic.I|]); [| | | |constructor].
    - apply good_plain. constructor.
    - apply good_plain. repeat constructor.
    - apply (good_conv (bs "<08") (bs "ll") 120); repeat constructor.
    - apply good_plain. constructor. }
  split; [reflexivity|]. split; [reflexivity|]. split; vm_compute; reflexivity.
Qed.

(** C88 fails without arguments: the format goes to printf as it is, so the escapes are not
    undone, and a '%' is taken for the start of a directive. *)
Theorem C88_no_arguments_refuted :
  (exists ts s, Forall tok_ok ts /\ Forall tok_good ts /\ uses ts = 0 /\ write ts = bs "{{}}" /\ printd (write ts) [] = Ok s /\
     printf_items None s <> Some (items ts [])) /\
  (exists ts s, Forall tok_ok ts /\ Forall tok_good ts /\ uses ts = 0 /\ write ts = bs "5%" /\ printd (write ts) [] = Ok s /\
     printf_items None s = None).
Proof.
  split.
  - exists [TOpen; TClose]. eexists. split; [repeat constructor|]. split; [repeat constructor|].
    split; [reflexivity|]. split; [reflexivity|]. split; [vm_compute; reflexivity|]. vm_compute. discriminate.
  - exists [TLit 53; TPct]. eexists. split; [repeat constructor; discriminate|]. split; [repeat constructor|].
    split; [reflexivity|]. split; [reflexivity|]. split; [vm_compute; reflexivity|]. vm_compute. reflexivity.
Qed.

(** C88 fails for formats within the documented 127 characters: 64 percent signs, or 100
    characters and 12 long doubles, already overrun the 128 bytes of the buffer. *)
Theorem C88_buffer_refuted :
  (exists ts, Forall tok_ok ts /\ uses ts = 0 /\ zlen (write ts) = 64 /\ printd (write ts) [] = Err OOB) /\
  (exists ts types, Forall tok_ok ts /\ uses ts = zlen types /\ zlen types <= 12 /\ zlen (write ts) <= 127 /\
     percents (write ts) = 0 /\ printd (write ts) types = Err OOB).
Proof.
  split.
  - exists (repeat TPct 64). split; [repeat constructor|]. split; [reflexivity|]. split; [reflexivity|]. vm_compute. reflexivity.
  - exists (repeat (TLit 65) 100 ++ repeat (TField None) 12), (repeat TLDouble 12).
    split; [repeat constructor; discriminate|]. split; [reflexivity|]. split; [vm_compute; discriminate|].
    split; [vm_compute; discriminate|]. split; [reflexivity|]. vm_compute. reflexivity.
Qed.

(** C89: a stream that was printed to shows the texts one after the other, zero-terminated, in a
    buffer of cap + 1 bytes that is never left; in overwrite mode it shows the last text. *)
Fixpoint shown (over : bool) (l : str) (texts : list str) : str :=
  match texts with [] => l | t :: r => shown over (if over then t else l ++ t) r end.
Theorem C89_stream (ss : stream) (l : str) (texts : list str) : shows ss l ->
  exists ss', sprints ss texts = Ok ss' /\ shows ss' (shown (overwrite ss) l texts).
Proof.
  revert ss l. induction texts as [|t r IH]; intros ss l H; cbn [sprints shown]; [eauto|].
  destruct (sprint_ok ss l t (or_introl H)) as (s1 & -> & H1 & Ho). cbn [bind].
  destruct (IH s1 _ H1) as (s2 & E & H2). rewrite Ho in H2. eauto.
Qed.
Theorem C89_fresh_partial (over : bool) (t : str) (texts : list str) : t <> [] ->
  exists ss', sprints (mkss None 0 0 over) (t :: texts) = Ok ss' /\ shows ss' (shown over [] (t :: texts)).
Proof.
  intros Ht. cbn [sprints shown].
  destruct (sprint_ok (mkss None 0 0 over) [] t) as (s1 & -> & H1 & Ho); [right; cbn; auto|]. cbn [bind overwrite app] in *.
  destruct (C89_stream s1 _ texts H1) as (s2 & E & H2). rewrite Ho in H2. eauto.
Qed.
(** C89 fails if the first text printed to a fresh stream is empty: the terminating 0 is written
    to the null pointer. *)
Theorem C89_fresh_empty_refuted : forall over, sprint (mkss None 0 0 over) [] = Err NullDeref.
Proof. intros []; reflexivity. Qed.
Example C89_met : exists ss', sprints (mkss None 0 0 false) [bs "Pi"; bs " is "; bs ""; bs "3.14"] = Ok ss' /\
  shows ss' (bs "Pi is 3.14") /\ len ss' = 10 /\ cap ss' = 13.
Proof.
  eexists. split; [vm_compute; reflexivity|]. split; [|split; reflexivity].
  split; [reflexivity|]. split; [vm_compute; discriminate|]. eexists. split; [reflexivity|]. split; [reflexivity|].
  eexists. vm_compute. reflexivity.
Qed.
Print Assumptions C88_accepts.
Print Assumptions C88_translates.
Print Assumptions C88_printf.
Print Assumptions C88_print_partial.
Print Assumptions C88_no_arguments_refuted.
Print Assumptions C88_buffer_refuted.
Print Assumptions C89_stream.
Print Assumptions C89_fresh_partial.
Print Assumptions C89_fresh_empty_refuted.
