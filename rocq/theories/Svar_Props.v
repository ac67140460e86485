From Verif Require Import Base Slots Utf8_Spec Cstr_Model Cstr_Spec Var_Spec Svar_Model Svar_Spec Svar_Proofs.

(** Programs over several cstr variables: no use of freed or (the comparison in cstr_take
    apart) uninitialised memory, no double free; each variable keeps its own text.  Nothing is leaked when the strings taken satisfy a
    property [P] such that no short string with [P] looks like an address. *)
Theorem C105_cstr_variables_partial looks stays n ops : slegal_all (repeat None n) ops ->
  exists s, srun looks stays (sstart n) ops = Ok s /\ well_owned s (sspec_all (repeat None n) ops) /\
    forall P : list Z -> Prop, (forall p d b, P b -> repr (Short d) b -> looks p d = false) -> takes_all P (repeat None n) ops -> sleaked s = [].
Proof.
  intro L. destruct (srun_ok looks stays (fun _ => False) (fun _ _ _ F => match F with end) ops _ _ (sinv_start n) L) as (s & E & I & _). exists s. split; [exact E|]. split; [split|].
  - intros i a O. destruct (var_of _ _ _ _ I O) as (v & V & G). destruct (sload_ok _ _ _ G) as (c & LD & R). eauto.
  - exact (c_sep _ _ _ _ I).
  - exact (c_live _ _ _ _ I).
  - intros P HP K. destruct (srun_ok looks stays P HP ops _ _ (sinv_start n) L) as (s' & E' & _ & K'). rewrite E in E'. injection E' as <-. exact (K' K).
Qed.
(** Where the last byte of an address is 0 (little endian, user space) and all strings taken are
    [plain], no buffer is left once no variable owns anything. *)
Theorem C105_all_freed_partial addr stays n ops : slegal_all (repeat None n) ops ->
  (forall p, In 0 (addr p)) -> takes_all plain (repeat None n) ops ->
  (forall i, owns (sspec_all (repeat None n) ops) i = None) ->
  exists s, srun (looks_at addr) stays (sstart n) ops = Ok s /\ forall p c, aget (sheap s) p <> Ok (Some c).
Proof.
  intros L A K N. destruct (C105_cstr_variables_partial (looks_at addr) stays n ops L) as (s & E & W & K'). exists s. split; [exact E|]. intros p c H.
  destruct (w_live _ _ W p c H) as [X|(i & X & _)]; [|apply X, N]. rewrite (K' plain) in X; [destruct X| |exact K].
  intros p0 d b PB R. exact (plain_unlike addr p0 d b (A p0) PB R).
Qed.

Definition thirty : list Z := repeat 97 30.
(** 0x00005555555592a0 in little endian order. *)
Definition an_address : list Z := [0xa0; 0x92; 0x55; 0x55; 0x55; 0x55; 0; 0].
Definition leaking : list sop := [SFrom 0 thirty; STakeNew 0 an_address; SDrop 0].
Lemma text_of b : forallb (fun x => (0 <=? x) && (x <? 256)) b && (zlen b <=? max_len) = true -> text b.
Proof.
  intro H. apply andb_prop in H as [H1 H2]. split; [|now apply Z.leb_le]. apply Forall_forall. intros x X. rewrite forallb_forall in H1. specialize (H1 x X). unfold is_byte. lia.
Qed.
Ltac legal1 := lazymatch goal with
  | |- _ /\ _ => split
  | |- text _ => apply text_of; vm_compute; reflexivity
  | |- op_bytes OShrink => exact Logic.I
  | |- op_bytes (OErase _ _) => exact Logic.I
  | |- op_bytes (OAppend ?b) => apply (proj1 (text_of b eq_refl))
  | |- is_var _ _ => vm_compute; split; congruence
  | |- owns _ _ = None => vm_compute; reflexivity
  | |- owns _ _ <> None => vm_compute; discriminate
  | |- _ \/ _ => first [right; reflexivity | left; vm_compute; reflexivity]
  | |- exists a b, _ => do 2 eexists; split; [vm_compute; reflexivity|]; split; [vm_compute; reflexivity|]
  end.
Ltac legal := repeat legal1.
Example leaking_legal : slegal_all (repeat None 1) leaking.
Proof. unfold leaking. cbn [slegal_all slegal]. legal. exact Logic.I. Qed.
(** Every buffer is freed once no variable owns anything: false, as a short string may have the
    bytes of an address. *)
Theorem C105_take_leaks_refuted stays :
  ~ (forall addr ops s, slegal_all (repeat None 1) ops -> (forall i, owns (sspec_all (repeat None 1) ops) i = None) ->
     srun (looks_at addr) stays (sstart 1) ops = Ok s -> forall p c, aget (sheap s) p <> Ok (Some c)).
Proof.
  intro H. refine (H (fun _ => an_address) leaking _ leaking_legal _ _ 0 _ _); [intro i; apply (Var_Proofs.owns_repeat 1 i)| |]; vm_compute; reflexivity.
Qed.
(** The bytes compared are written: false for a short string of less than 7 characters. *)
Theorem C105_take_reads_unwritten_refuted :
  ~ (forall b c, text b -> from_n b = Ok c -> exists w, rds (sdata c) 0 8 = Ok w).
Proof.
  intro H. destruct (H [97; 98] (match from_n [97; 98] with Ok c => c | Err _ => init end)) as (w & E); [legal|vm_compute; reflexivity|]. vm_compute in E. discriminate.
Qed.

(** Three variables: long and short strings copied, moved, taken and dropped. *)
Definition busy : list sop :=
  [SFrom 0 thirty; SClone 0 1; SInit 2; SOp 1 (OAppend [98; 99]); SCopy 2 1; SCopy 0 0; SOp 0 (OErase 3 27); SOp 0 OShrink;
   STake 1 0; SMove 2 2; STake 2 2; SDrop 0; SMove 2 0; STakeNew 0 [100]].
Example C105_met : slegal_all (repeat None 3) busy /\ sspec_all (repeat None 3) busy = [Some [100]; Some [97; 97; 97]; Some []] /\
  exists s, srun (fun _ _ => false) (fun _ _ => false) (sstart 3) busy = Ok s /\ sheap s = repeat None 6.
Proof.
  split; [|split; [vm_compute; reflexivity|]].
  - unfold busy. cbn [slegal_all slegal]. legal. exact Logic.I.
  - eexists. split; vm_compute; reflexivity.
Qed.
(** The strings taken are plain: a long one, a short one of 8 characters. *)
Definition tidy : list sop :=
  [SFrom 0 thirty; SFrom 1 (98 :: thirty); STake 0 1; STakeSelf 0; STakeNew 0 (repeat 99 8); STakeSelf 0; SOp 1 (OAppend thirty); SDrop 1; SDrop 0].
Example C105_all_freed_met : slegal_all (repeat None 2) tidy /\ takes_all plain (repeat None 2) tidy /\
  (forall i, owns (sspec_all (repeat None 2) tidy) i = None) /\
  exists s, srun (looks_at (fun _ => an_address)) (fun _ _ => true) (sstart 2) tidy = Ok s /\ sheap s = repeat None 3.
Proof.
  split; [|split; [|split]].
  - unfold tidy. cbn [slegal_all slegal]. legal. exact Logic.I.
  - unfold tidy. cbn [takes_all]. repeat split; intros b E; vm_compute in E; try discriminate; injection E as <-; [left; vm_compute; reflexivity|right; split; [vm_compute; discriminate|]]. intro X. repeat (destruct X as [X|X]; [discriminate X|]). destruct X.
  - intro i. apply (Var_Proofs.owns_repeat 2 i).
  - eexists. split; vm_compute; reflexivity.
Qed.
(** A long string in upper case, and with fours of characters removed from it until it is short. *)
Definition shorten : list sop := [SFrom 0 thirty; SCase 0 2 thirty; SReplace 0 (repeat 65 4) [] 5 (repeat 65 10); SDrop 0].
Lemma four_off n r out : replaced (repeat 65 4) [] n r out -> replaced (repeat 65 4) [] (S n) (repeat 65 4 ++ r) out.
Proof.
  intro H. apply (rp_next (repeat 65 4) [] n [] r out); [|exact H]. split; [exists [], r; split; reflexivity|]. intros j O. apply View_Proofs.occurs_range in O. change (zlen (@nil Z)) with 0. lia.
Qed.
Example C105_shorten_met : slegal_all (repeat None 1) shorten /\ takes_all plain (repeat None 1) shorten /\
  exists s, srun (looks_at (fun _ => an_address)) (fun _ _ => true) (sstart 1) shorten = Ok s /\ sheap s = repeat None 2.
Proof.
  split; [|split].
  - unfold shorten. cbn [slegal_all slegal]. split; [legal|]. split; [|split; [|split; [legal|exact Logic.I]]].
    + split; [vm_compute; reflexivity|]. split; [|split; [now right|legal]]. apply Forall_forall. intros x X. apply repeat_spec in X. subst. unfold scalar. lia.
    + exists (repeat 65 30). split; [vm_compute; reflexivity|]. split; [discriminate|]. split; [lia|]. split; [legal|].
      change (Z.to_nat _) with 5%nat. change (repeat 65 30) with (repeat 65 4 ++ repeat 65 4 ++ repeat 65 4 ++ repeat 65 4 ++ repeat 65 4 ++ repeat 65 10).
      do 5 apply four_off. apply rp_stop.
  - unfold shorten. cbn [takes_all]. repeat split; intros b E; vm_compute in E; try discriminate; injection E as <-; [left; vm_compute; reflexivity|right; split; [vm_compute; discriminate|]]. intro X. repeat (destruct X as [X|X]; [discriminate X|]). destruct X.
  - eexists. split; vm_compute; reflexivity.
Qed.
Print Assumptions C105_cstr_variables_partial.
Print Assumptions C105_all_freed_partial.
Print Assumptions C105_take_leaks_refuted.
Print Assumptions C105_take_reads_unwritten_refuted.
