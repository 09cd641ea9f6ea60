(** Check_Curve on digit arrays. *)
From Coq Require Import Znumtheory.
From Verif Require Import Base BaseP Digits DigitsP Out Params Fp Wf FpP Fld FpRep FpMisc FpMiscP PrimeInst FpInst Ops Ec Models Sim ModelsSim
  WordOps FieldOps WordSim CurveSpec OrderSpec FldCurve GroupP MultP OrderP CountP CheckP WordCurve.
Set Bullet Behavior "Strict Subproofs".

(** What acceptance proves about the curve y^2 = x^3 + A x^2 + x. *)
Definition certified {F : fld} (P : params) (A : F) : Prop :=
  exists M1 M2 M3 M4 a b c d,
    on A k1 M1 /\ on A k1 M2 /\ on A k1 M3 /\ on A k1 M4 /\
    has_order A k1 M1 (2 ^ a) /\ has_order A k1 M2 (2 ^ b) /\ has_order A k1 M3 (3 ^ c) /\ has_order A k1 M4 (3 ^ d) /\
    independent4 A k1 M1 M2 M3 M4 (2 ^ a) (2 ^ b) (3 ^ c) (3 ^ d) /\
    (a <= e2 P)%nat /\ (b <= e2 P)%nat /\ (c <= e3 P)%nat /\ (d <= e3 P)%nat /\
    4 * (par_p P + 1) < 2 ^ Z.of_nat (a + b) * 3 ^ Z.of_nat (c + d).
(** The exponents fit in 32 bits. *)
Definition exps32 (P : params) : Prop := Z.of_nat (e2 P) < 2 ^ 32 /\ Z.of_nat (e3 P) < 2 ^ 32.

Section WK.
Variable P : params.
Hypothesis HG : good P.
Hypothesis HR : rand_ok P.
Hypothesis small : exps32 P.
Local Notation HW := (FpInst.HW P HG). Local Notation Hp := (FpInst.Hp P HG).
Notation OW := (word_ops P). Notation OF := (field_ops P HW Hp).
Lemma shape1 : par_p P + 1 = 2 ^ Z.of_nat (e2 P) * 3 ^ Z.of_nat (e3 P).
Proof. exact (wf_shape P HW). Qed.
Lemma Check_word junk E tp : crng P E ->
  Check_Curve OW P junk E tp = Check_Curve OF P (@mkPt OF (@k0 (GF P HG)) (@k0 (GF P HG))) (cel P HG E) tp.
Proof.
  intros HE. pose proof (Check_Curve_sim _ _ (S0 P HG) (word_rand P HW Hp HR) P junk (@mkPt OF (@k0 (GF P HG)) (@k0 (GF P HG))) _ _ tp (cel_rel P HG E HE)) as H.
  destruct H as [a b [H1 H2]| | | |]; auto. f_equal. destruct a, b; cbn in *; congruence.
Qed.
Lemma Check_accept junk E tp tp' : crng P E -> el P HG (cC E) = k1 -> Check_Curve OW P junk E tp = Ok (true, tp') ->
  (el P HG (cA E) * el P HG (cA E) <> 4)%F /\ certified P (el P HG (cA E)).
Proof.
  intros HE HC H. rewrite (Check_word junk E tp HE) in H.
  assert (NS : (el P HG (cA E) * el P HG (cA E) <> 4)%F).
  { intros S. revert H. refine (check_singular (GF P HG) _ _ _ _ _ _ (two_nz P HG) P shape1 small (el P HG (cA E)) _ (cel P HG E) tp tp' _ eq_refl HC S).
    pose proof (wf_e3 P HW). lia. }
  split; auto. refine (check_sound (GF P HG) _ _ _ _ _ _ (two_nz P HG) P shape1 small (el P HG (cA E)) NS _ (cel P HG E) tp tp' eq_refl HC H).
Qed.
Lemma Check_count junk E tp tp' l : crng P E -> el P HG (cC E) = k1 -> Check_Curve OW P junk E tp = Ok (true, tp') ->
  all_points (el P HG (cA E)) k1 l -> hasse (par_p P) (Z.of_nat (length l)) ->
  Z.of_nat (length l) = (par_p P + 1) * (par_p P + 1).
Proof.
  intros HE HC H Hl Hh. destruct (Check_accept junk E tp tp' HE HC H) as [NS C].
  exact (certificate_count (GF P HG) (fun x => x) (fun _ _ => false) (fun _ => nil) (fun _ => k0) (fun _ => NoTape) (two_nz P HG) P shape1 (el P HG (cA E)) NS l C Hl Hh).
Qed.
Lemma Check_complete junk E tp tp' : crng P E -> el P HG (cC E) = k1 -> (el P HG (cA E) * el P HG (cA E) <> 4)%F ->
  (forall M, on (el P HG (cA E)) k1 M -> pmul (el P HG (cA E)) k1 (Z.to_nat (par_p P + 1)) M = Inf) ->
  Check_Curve OW P junk E tp <> Ok (false, tp').
Proof.
  intros HE HC NS K. rewrite (Check_word junk E tp HE).
  apply (check_complete (GF P HG) _ _ _ _ _ _ (two_nz P HG) P (el P HG (cA E)) NS); auto.
  intros M HM. specialize (K M HM). rewrite shape1 in K.
  replace (Z.to_nat (2 ^ Z.of_nat (e2 P) * 3 ^ Z.of_nat (e3 P))) with (2 ^ e2 P * 3 ^ e3 P)%nat in K; auto.
  apply Nat2Z.inj. rewrite Z2Nat.id, Nat2Z.inj_mul, !Nat2Z.inj_pow; auto.
  apply Z.mul_nonneg_nonneg; apply Z.pow_nonneg; lia.
Qed.
End WK.

(** The theorems on the integer test, with the conditions on P stated as for the other theorems. *)
Section Order.
Variable P : params.
Hypothesis HG : good P.
Hypothesis small : exps32 P.
Lemma order_sound a b : 0 <= a -> 0 <= b -> proves_order P a b = true -> 4 * (par_p P + 1) < 2 ^ a * 3 ^ b.
Proof. exact (proves_sound P (shape1 P HG) small a b). Qed.
Lemma order_exact a b : 0 <= a < 2 ^ 32 -> 0 <= b < 2 ^ 32 ->
  (proves_order P a b = true <-> 665 * (2 + Z.of_nat (e2 P)) + 1055 * Z.of_nat (e3 P) < 665 * a + 1054 * b).
Proof. intros Ha Hb. rewrite (proves_exact P small a b Ha Hb). apply Z.ltb_lt. Qed.
Lemma order_group a b n : 0 <= a <= 2 * Z.of_nat (e2 P) -> 0 <= b <= 2 * Z.of_nat (e3 P) -> proves_order P a b = true ->
  hasse (par_p P) n -> (2 ^ a * 3 ^ b | n) -> n = (par_p P + 1) * (par_p P + 1).
Proof. intros Ha Hb H. apply (hasse_order P (shape1 P HG)); auto. apply order_sound; auto; lia. Qed.
Lemma order_full : 4 <= Z.of_nat (e2 P) -> proves_order P (2 * Z.of_nat (e2 P)) (2 * Z.of_nat (e3 P)) = true.
Proof.
  intros H. destruct small as [S1 S2].
  assert (L64 : 2 ^ 64 = 18446744073709551616) by reflexivity. change (2 ^ 32) with 4294967296 in *.
  unfold proves_order, ul. rewrite !Z.mod_small; rewrite ?Z.mod_small; try lia. 
Qed.
End Order.
Lemma order_configurations P : In P [P434 T64; P503 T64; P610 T64; P751 T64; P434 T32; P503 T32; P610 T32; P751 T32] ->
  good P /\ exps32 P /\ 4 <= Z.of_nat (e2 P).
Proof.
  intros H. split.
  - cbn [In] in H. repeat destruct H as [<-|H]; try contradiction; auto using good_434, good_503, good_610, good_751.
  - clear - H. cbn [In] in H. repeat destruct H as [<-|H]; try contradiction; (split; [split; reflexivity|vm_compute; discriminate]).
Qed.
