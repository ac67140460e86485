(** A compiled program has at most 31 groups. *)
From Verif Require Import Base Regex_Model Recomp_Model Recomp_Proofs4.

Lemma push_csub p a p' : pushator p a = ret p' -> csub p' = csub p.
Proof. unfold pushator. destruct (length (ators p) <? NSTACK)%nat; [intros [= <-]; reflexivity|discriminate]. Qed.
Lemma cat_csub p p' : op_cat p = ret p' -> csub p' = csub p.
Proof. intros H. unfold op_cat in H. apply cbind_inv in H. destruct H as (q & A & H). apply eu_csub in A. apply cbind_inv in H. destruct H as (q2 & A2 & H). apply push_csub in A2. injection H as <-. cbn. congruence. Qed.
Lemma pushand_csub p a b p' : pushand p a b = ret p' -> csub p' = csub p.
Proof. unfold pushand. destruct (length (ands p) <? NSTACK)%nat; [intros [= <-]; reflexivity|discriminate]. Qed.
Lemma operand_csub p o p' : operand p o = ret p' -> csub p' = csub p.
Proof.
  intros H. unfold operand in H. apply cbind_inv in H. destruct H as (q & A & H). assert (E : csub q = csub p) by (destruct (lw p); [now apply cat_csub|now injection A as <-]).
  apply cbind_inv in H. destruct H as ([i q2] & B & H). assert (E2 : csub q2 = csub q) by (unfold newinst in B; destruct (zlen (pcode q) <? icap q); [injection B as _ <-; reflexivity|discriminate B]).
  apply cbind_inv in H. destruct H as (q3 & C & H). apply pushand_csub in C. injection H as <-. cbn. congruence.
Qed.
Lemma feed_csub p t p' : csub p <= 31 -> feed p t = ret p' -> csub p' <= 31.
Proof.
  intros Hk H. destruct t as [| |a|o]; cbn [feed] in H.
  - injection H as <-. exact Hk.
  - unfold op_rbra in H. destruct (nbra p - 1 <? 0); [discriminate H|]. apply cbind_inv in H. destruct H as (q & A & H). apply eu_csub in A. injection H as <-. cbn in *. lia.
  - assert (G : forall b, (let! p0 := eval_ (Some (prio a)) p in let! p1 := pushator p0 a in ret (set_lw p1 b)) = ret p' -> csub p' <= 31).
    { intros b G. apply cbind_inv in G. destruct G as (q & A & G). apply eu_csub in A. apply cbind_inv in G. destruct G as (q2 & A2 & G). apply push_csub in A2. injection G as <-. cbn. lia. }
    destruct a; cbn [operator] in H; try (eapply G; exact H). destruct (Z.leb_spec 32 (csub p + 1)); [discriminate H|]. apply cbind_inv in H. destruct H as (q & A & H). apply cbind_inv in H. destruct H as (q2 & A2 & H). apply push_csub in A2. injection H as <-. cbn [set_lw csub].
    match type of A with context [if lw ?q0 then _ else _] => destruct (lw q0) end; [apply cat_csub in A; cbn [csub] in A; lia|injection A as <-; cbn [csub] in *; lia].
  - apply operand_csub in H. lia.
Qed.
Lemma loop_csub : forall fuel m l p p', csub p <= 31 -> comp_loop fuel m l p = ret p' -> csub p' <= 31.
Proof.
  induction fuel as [|fuel IH]; intros m l p p' Hk H; [discriminate H|]. cbn [comp_loop] in H. apply cbind_inv in H. destruct H as ([t l'] & A & H).
  destruct t; [injection H as <-; exact Hk|..]; apply cbind_inv in H; destruct H as (q & B & H); apply feed_csub in B; auto; eapply IH; eauto.
Qed.
Lemma compile_nsub m s len ic dn pr : compile m s len ic dn = ret pr -> (nsub pr <= 31)%nat.
Proof.
  intros H. unfold compile in H. apply cbind_inv in H. destruct H as (p & A & H). apply loop_csub in A; [|cbn; lia]. unfold finish in H.
  apply cbind_inv in H. destruct H as (p1 & A1 & H). apply eu_csub in A1. apply cbind_inv in H. destruct H as (p2 & A2 & H). apply operand_csub in A2. apply cbind_inv in H. destruct H as (p3 & A3 & H). apply eu_csub in A3.
  destruct (negb (nbra p3 =? 0)); [discriminate H|]. destruct (ands p3) as [|[f l] r]; [discriminate H|]. apply cbind_inv in H. destruct H as (c & _ & H). injection H as <-. cbn [nsub]. lia.
Qed.
