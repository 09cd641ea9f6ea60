(** fpmul503_asm gives the words of the generic Montgomery multiplication. *)
From Coq Require Import Znumtheory.
From Verif Require Import Base BaseP Params Wf Digits DigitsP Fp FpP Asm AsmP503 AsmP AsmRedP AsmRed2 AsmMul434 AsmAdd434 AsmMul503 AsmAdd503.

Local Notation P := (P503 T64).

(** A Montgomery product is determined by the equation and the bound on the multiple of p. *)
Lemma mont_unique8 v v' x m m' : 0 <= m < W ^ 8 -> 0 <= m' < W ^ 8 ->
  W ^ 8 * v = x + m * p503 -> W ^ 8 * v' = x + m' * p503 -> v = v'.
Proof.
  intros Hm Hm' E E'.
  assert (D : (W ^ 8 | p503 * (m - m'))) by (exists (v - v'); lia).
  apply Gauss in D; [|apply Zgcd_1_rel_prime; vm_compute; reflexivity].
  destruct D as [q Hq]. assert (q = 0).
  { assert (- W ^ 8 < q * W ^ 8 < W ^ 8) by lia. assert (0 < W ^ 8) by reflexivity. nia. }
  subst q. assert (m = m') by lia. subst m'. assert (0 < W ^ 8) by reflexivity. nia.
Qed.

Lemma ok_words8 a : length a = 8%nat -> Forall word a -> Wf.ok P a.
Proof. intros L H. split; auto. Qed.
(** The words of a Montgomery product are those of the generic function. *)
Lemma mont_eq8 a b c m : length a = 8%nat -> length b = 8%nat -> Forall word a -> Forall word b ->
  valB W a * valB W b < W ^ 8 * p503 -> Forall word c -> length c = 8%nat -> 0 <= m < W ^ 8 ->
  W ^ 8 * valB W c = valB W a * valB W b + m * p503 -> c = fpmul_mont P a b.
Proof.
  intros La Lb Wa Wb HB Wc Lc Hm E.
  destruct (fpmul_mont_val P (Wf_P503 T64) a b (ok_words8 a La Wa) (ok_words8 b Lb Wb)) as ((Lo & Do) & _ & q & Hq & Eq).
  { exact HB. }
  apply (valB_inj W); [reflexivity|exact Wc|exact Do| |].
  - rewrite Lc, Lo. reflexivity.
  - exact (mont_unique8 _ _ _ m q Hm Hq E Eq).
Qed.
Lemma mul_post_eq8 a b c : length a = 8%nat -> length b = 8%nat -> Forall word a -> Forall word b ->
  valB W a * valB W b < W ^ 8 * p503 -> mul_post8 a b c -> c = fpmul_mont P a b.
Proof. intros La Lb Wa Wb HB (Wc & Lc & _ & m & Hm & E). eapply mont_eq8; eauto. Qed.
Lemma mul_post_eq8' a b c : length a = 8%nat -> length b = 8%nat -> Forall word a -> Forall word b ->
  valB W a * valB W b < W ^ 8 * p503 -> mul_post8 b a c -> c = fpmul_mont P a b.
Proof. intros La Lb Wa Wb HB (Wc & Lc & _ & m & Hm & E). rewrite (Z.mul_comm (valB W b)) in E. eapply mont_eq8; eauto. Qed.
Lemma fpmul503_eq s : let a := wat (mem s) (rg s RDI) 0 8 in let b := wat (mem s) (rg s RSI) 0 8 in
  Forall word a -> Forall word b -> valB W a + p503 <= W ^ 8 -> valB W a * valB W b < W ^ 8 * p503 ->
  fp_post8 s (run fpmul503_asm s) (fpmul_mont P a b).
Proof.
  intros a b Wa Wb Ha Hab. destruct (fpmul503_ok s Wa Wb Ha) as (S & O & Q). split; auto. split; auto.
  apply mul_post_eq8; auto; apply wat_length.
Qed.
