(** Property C55: command line options. *)
From Verif Require Import Base Opt_Model Opt_Spec Opt_Proofs Opt_Proofs2 Opt_Proofs3 Opt_Proofs4.
From Coq Require Import Permutation.

(** The strings given are C strings. *)
Definition given_ok (so : option str) (los : option (list lopt)) (args : list str) : Prop :=
  strings args /\ match so with Some sh => Forall (fun c => c <> 0) sh | None => True end /\
  match los with Some ls => Forall (fun l => Forall (fun c => c <> 0) (lname l)) ls | None => True end.

(** Without an ambiguous long option, calling coption_get until it returns -1 ends and reports
    exactly the options that the command line means; argv is then the program name, the options
    with their arguments, and from opt.ind on the other arguments, each in the given order. *)
Theorem C55_meaning so los prog args fuel : given_ok so los args -> no_end so los ->
  let m := parse so los args in
  stuck m = false -> (length (evs m) < fuel)%nat ->
  exists o', loop coption_init (prog :: args) so los fuel = Ok (evs m, o', prog :: taken m ++ others m ++ rest m) /\
    oind o' = 1 + zlen (taken m) /\ merge (taken m) (others m ++ rest m) args /\ Forall (fun s => plain s = true) (others m).
Proof.
  intros (Hs & Hso & Hlo) Hn m Hst Hf.
  destruct (loop_ok so los Hso Hlo Hn fuel _ _ _ _ _ _ (R_init so prog args Hs) Hst Hf) as (o' & argv' & E & Ea & Hi).
  exists o'. rewrite E, Ea. split; [reflexivity|]. split; [exact Hi|]. clear. unfold m.
  enough (forall n l, (length l < n)%nat -> merge (taken (parse so los l)) (others (parse so los l) ++ rest (parse so los l)) l /\ Forall (fun s => plain s = true) (others (parse so los l))) as Q by (eapply Q; eauto).
  induction n as [|n IH]; intros l Hl; [lia|].
  assert (REST : forall l : list str, merge [] l l) by (induction l0; constructor; assumption).
  destruct l as [|a t]; [split; constructor|]. cbn [length] in Hl. cbn [parse].
  set (ok := fun (x : outcome) (l : list str) => merge (taken x) (others x ++ rest x) l /\ Forall (fun s => plain s = true) (others x)).
  assert (ONE : forall es, ok (add es [a] [] (parse so los t)) (a :: t)).
  { intros es. destruct (IH t ltac:(lia)). split; [constructor|]; assumption. }
  assert (TWO : forall es x B, t = x :: B -> ok (add es [a; x] [] (parse so los B)) (a :: t)).
  { intros es x B ->. cbn [length] in Hl. destruct (IH B ltac:(lia)). split; [do 2 constructor|]; assumption. }
  destruct (plain a) eqn:Pa.
  - destruct (posix so); [split; [apply REST|constructor]|]. destruct (IH t ltac:(lia)). split; cbn [add taken others rest app]; constructor; assumption.
  - assert (SH : ok (match so with
          | None => mkout [] [] [] (a :: t) false
          | Some sh =>
              match group sh (hd_error t) (tl a) with
              | (es, true) => match t with n :: t' => add es [a; n] [] (parse so los t') | [] => add es [a] [] (parse so los t) end
              | (es, false) => add es [a] [] (parse so los t)
              end
          end) (a :: t)).
    { destruct so as [sh|]; [|split; [apply REST|constructor]]. destruct (group sh (hd_error t) (tl a)) as [es [|]]; [destruct t as [|x B]|]; auto. }
    assert (LO : ok (match long los a (hd_error t) with
          | None => mkout [mkev chQ 0 (Some a) None] [] [] (a :: t) true
          | Some (e, true) => match t with n :: t' => add [e] [a; n] [] (parse so los t') | [] => add [e] [a] [] (parse so los t) end
          | Some (e, false) => add [e] [a] [] (parse so los t)
          end) (a :: t)).
    { destruct (long los a (hd_error t)) as [[e [|]]|]; [destruct t as [|x B]| |]; auto. split; [apply REST|constructor]. }
    destruct (skipn 2 a); destruct (is_short a); try exact SH; try exact LO. split; [constructor; apply REST|constructor].
Qed.

(** argv is a permutation of the given arguments after any number of calls, and no call reads or
    writes outside of argv or of a string. *)
Theorem C55_argv_permutation so los prog args n : given_ok so los args -> no_end so los ->
  exists es o' argv', calls coption_init (prog :: args) so los n = Ok (es, o', argv') /\ Permutation (prog :: args) argv'.
Proof. intros (Hs & Hso & Hlo) Hn. exact (calls_ok so los Hso Hlo Hn n _ _ _ _ _ _ (R_init so prog args Hs)). Qed.

(** A client that stops at the first error always ends, and has seen the options up to the error. *)
Theorem C55_stop_at_error so los prog args fuel : given_ok so los args -> no_end so los ->
  (length (evs (parse so los args)) < fuel)%nat ->
  exists o' argv', loop_stop coption_init (prog :: args) so los fuel = Ok (upto_error (evs (parse so los args)), o', argv') /\ Permutation (prog :: args) argv'.
Proof. intros (Hs & Hso & Hlo) Hn Hf. exact (loop_stop_ok so los Hso Hlo Hn fuel _ _ _ _ _ _ (R_init so prog args Hs) Hf). Qed.

(** A client that goes on after an ambiguous long option never ends: coption_get stays at it. *)
Theorem C55_ambiguous_never_ends so los prog args : given_ok so los args -> no_end so los ->
  stuck (parse so los args) = true -> forall fuel, loop coption_init (prog :: args) so los fuel = Err OutOfFuel.
Proof. intros (Hs & Hso & Hlo) Hn Hst fuel. exact (loop_stuck so los Hso Hlo Hn fuel _ _ _ _ _ _ (R_init so prog args Hs) Hst). Qed.

(** prog --f, with the options "foo" and "far". *)
Theorem C55_terminates_refuted : exists so los args, given_ok so los args /\ no_end so los /\
  forall prog fuel, loop coption_init (prog :: args) so los fuel = Err OutOfFuel.
Proof.
  exists None, (Some [mklo [102; 111; 111] NoArg 1; mklo [102; 97; 114] NoArg 2]), [[45; 45; 102]].
  assert (G : given_ok None (Some [mklo [102; 111; 111] NoArg 1; mklo [102; 97; 114] NoArg 2]) [[45; 45; 102]]).
  { unfold given_ok, strings. repeat apply conj; repeat (apply Forall_cons || apply Forall_nil); cbn; try lia; repeat (apply Forall_cons || apply Forall_nil); lia. }
  assert (N : no_end None (Some [mklo [102; 111; 111] NoArg 1; mklo [102; 97; 114] NoArg 2])).
  { split; [|discriminate]. intros ls l E. injection E as <-. intros [<-|[<-|[]]]; cbn; lia. }
  split; [exact G|]. split; [exact N|]. intros prog fuel. apply C55_ambiguous_never_ends; try assumption. reflexivity.
Qed.

(** shortopts "xy:z::", longopts foo, bar ARG, opt [ARG]:
    prog a -xyY b -z -x c --ba B --opt=o d -- -e f *)
Example C55_met :
  let so := Some [120; 121; 58; 122; 58; 58] in
  let los := Some [mklo [102; 111; 111] NoArg 102; mklo [98; 97; 114] ReqArg 98; mklo [111; 112; 116] OptArg 111] in
  let args := [[97]; [45; 120; 121; 89]; [98]; [45; 122]; [45; 120]; [99]; [45; 45; 98; 97]; [66]; [45; 45; 111; 112; 116; 61; 111]; [100]; [45; 45]; [45; 101]; [102]] in
  given_ok so los args /\ no_end so los /\ stuck (parse so los args) = false /\
  map eret (evs (parse so los args)) = [120; 121; 122; 120; 98; 111] /\
  map earg (evs (parse so los args)) = [None; Some [89]; None; None; Some [66]; Some [111]] /\
  others (parse so los args) ++ rest (parse so los args) = [[97]; [98]; [99]; [100]; [45; 101]; [102]].
Proof.
  cbv zeta. split; [|split; [|vm_compute; repeat split]].
  - unfold given_ok, strings. repeat apply conj; repeat (apply Forall_cons || apply Forall_nil); cbn; try lia; repeat (apply Forall_cons || apply Forall_nil); lia.
  - split.
    + intros ls l E. injection E as <-. intros [<-|[<-|[<-|[]]]]; cbn; lia.
    + intros sh E. injection E as <-. cbn. lia.
Qed.
Print Assumptions C55_meaning.
Print Assumptions C55_argv_permutation.
Print Assumptions C55_stop_at_error.
Print Assumptions C55_ambiguous_never_ends.
Print Assumptions C55_terminates_refuted.
