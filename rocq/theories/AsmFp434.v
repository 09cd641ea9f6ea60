(** fpmul434_asm gives the words of the generic Montgomery multiplication. *)
From Coq Require Import Znumtheory.
From Verif Require Import Base BaseP Params Wf Digits DigitsP Fp FpP Asm AsmP434 AsmP AsmRedP AsmMul434 AsmAdd434.

Local Notation P := (P434 T64).

(** A Montgomery product is determined by the equation and the bound on the multiple of p. *)
Lemma mont_unique v v' x m m' : 0 <= m < W ^ 7 -> 0 <= m' < W ^ 7 ->
  W ^ 7 * v = x + m * p434 -> W ^ 7 * v' = x + m' * p434 -> v = v'.
Proof.
  intros Hm Hm' E E'.
  assert (D : (W ^ 7 | p434 * (m - m'))) by (exists (v - v'); lia).
  apply Gauss in D; [|apply Zgcd_1_rel_prime; vm_compute; reflexivity].
  destruct D as [q Hq]. assert (q = 0).
  { assert (- W ^ 7 < q * W ^ 7 < W ^ 7) by lia. assert (0 < W ^ 7) by reflexivity. nia. }
  subst q. assert (m = m') by lia. subst m'. assert (0 < W ^ 7) by reflexivity. nia.
Qed.

Lemma ok_words a : length a = 7%nat -> Forall word a -> Wf.ok P a.
Proof. intros L H. split; auto. Qed.
(** The words of a Montgomery product are those of the generic function. *)
Lemma mont_eq a b c m : length a = 7%nat -> length b = 7%nat -> Forall word a -> Forall word b ->
  valB W a * valB W b < W ^ 7 * p434 -> Forall word c -> length c = 7%nat -> 0 <= m < W ^ 7 ->
  W ^ 7 * valB W c = valB W a * valB W b + m * p434 -> c = fpmul_mont P a b.
Proof.
  intros La Lb Wa Wb HB Wc Lc Hm E.
  destruct (fpmul_mont_val P (Wf_P434 T64) a b (ok_words a La Wa) (ok_words b Lb Wb)) as ((Lo & Do) & _ & q & Hq & Eq).
  { exact HB. }
  apply (valB_inj W); [reflexivity|exact Wc|exact Do| |].
  - rewrite Lc, Lo. reflexivity.
  - exact (mont_unique _ _ _ m q Hm Hq E Eq).
Qed.
Lemma mul_post_eq a b c : length a = 7%nat -> length b = 7%nat -> Forall word a -> Forall word b ->
  valB W a * valB W b < W ^ 7 * p434 -> mul_post a b c -> c = fpmul_mont P a b.
Proof. intros La Lb Wa Wb HB (Wc & Lc & _ & m & Hm & E). eapply mont_eq; eauto. Qed.
Lemma mul_post_eq' a b c : length a = 7%nat -> length b = 7%nat -> Forall word a -> Forall word b ->
  valB W a * valB W b < W ^ 7 * p434 -> mul_post b a c -> c = fpmul_mont P a b.
Proof. intros La Lb Wa Wb HB (Wc & Lc & _ & m & Hm & E). rewrite (Z.mul_comm (valB W b)) in E. eapply mont_eq; eauto. Qed.
Lemma fpmul434_eq s : let a := wat (mem s) (rg s RDI) 0 7 in let b := wat (mem s) (rg s RSI) 0 7 in
  Forall word a -> Forall word b -> valB W a + p434 <= W ^ 7 -> valB W a * valB W b < W ^ 7 * p434 ->
  fp_post s (run fpmul434_asm s) (fpmul_mont P a b).
Proof.
  intros a b Wa Wb Ha Hab. destruct (fpmul434_ok s Wa Wb Ha) as (S & O & Q). split; auto. split; auto.
  apply mul_post_eq; auto; apply wat_length.
Qed.
