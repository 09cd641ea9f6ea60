(** Verify over the digit arrays: no undefined behaviour (proofs only). *)
From Coq Require Import Znumtheory.
From Verif Require Import Base BaseP Digits Out Params Fp Wf Poik Hashing HashSpec HashingP Codec CodecSpec CodecP Fld FpRep FpMisc FpMiscP FpInst
  Ops Ec Models Proto Sim ModelsSim ProtoSim WordOps FieldOps WordSim CurveSpec IsogSpec ModelSpec XSpec OrderSpec ProtoSpec WalkSpec WordCurve WordModels WordCheck XIsog WordIsog ChainP WordWalk
  SupSpec WordMax VerifyP Cli CliP SafeSpec SafeP.
Set Bullet Behavior "Strict Subproofs".

(** ** Over any operations *)
Section Gen.
Variables (K : pok) (O : fops) (junk : pt O).
Lemma Verify_gen fuel prf tp tps : (forall a t, defined (check_packed K O junk a t)) ->
  (forall t1 t2 t3, check_packed K O junk (p_E0 prf) tp = Ok (true, t1) -> check_packed K O junk (p_E1 prf) t1 = Ok (true, t2) -> defined (responses K O junk prf tps t3 (p_resp prf))) ->
  safe_run K fuel (Verify K O junk fuel prf tp tps).
Proof.
  intros DC DR. unfold Verify. pose proof (DC (p_E0 prf) tp) as D0.
  destruct (check_packed K O junk (p_E0 prf) tp) as [[[|] t1]| | | |]; cbn [bind negb]; try exact I; try (destruct D0; fail).
  pose proof (DC (p_E1 prf) t1) as D1. specialize (DR t1).
  destruct (check_packed K O junk (p_E1 prf) t1) as [[[|] t2]| | | |]; cbn [bind negb]; try exact I; try (destruct D1; fail).
  specialize (DR t2 0%nat eq_refl eq_refl).
  destruct (responses K O junk prf tps 0 (p_resp prf)) as [[hs|]| | | |]; cbn [bind]; try exact I; try (destruct DR; fail).
  apply safe_bind; [apply Challenge_safe|]. intros ch _. exact I.
Qed.
End Gen.
Section WS.
Variable K : pok.
Notation P := (fpar K).
Variable HG : good P.
Hypothesis HR : rand_ok P.
Hypothesis HS : strat_good P.
Hypothesis small : exps32 P.
Notation OW := (word_ops P).
Local Notation GF := (GF P HG).
Local Notation maxi := (maximalP P HG).
Local Notation OF := (field_ops P (FpInst.HW P HG) (FpInst.Hp P HG)).
Lemma qrand_def tp : defined (qrand P (FpInst.HW P HG) (FpInst.Hp P HG) tp).
Proof. unfold qrand. destruct (Nat.ltb _ _); exact I. Qed.
Lemma felm_pos : (0 < felm_bytes P)%nat.
Proof.
  unfold felm_bytes, digit_bytes. pose proof (wf_n1 P (FpInst.HW P HG)). pose proof (wf_radix P (FpInst.HW P HG)). pose proof (wf_radix8 P (FpInst.HW P HG)).
  assert (0 < Z.to_nat (radix P / 8))%nat by (assert (0 < radix P / 8) by (Z.div_mod_to_equations; lia); lia). apply Nat.mul_pos_pos; lia.
Qed.
Lemma qrand_short tp x tp' : qrand P (FpInst.HW P HG) (FpInst.Hp P HG) tp = Ok (x, tp') -> (length tp' < length tp)%nat.
Proof.
  unfold qrand. pose proof felm_pos as L. destruct (Nat.ltb_spec (length tp) (2 * felm_bytes P)) as [|G]; [discriminate|]. intros H. apply SafeP.ok_pair in H as [_ <-]. rewrite skipn_length. lia.
Qed.
Notation junkF := (@mkPt OF (k0 : GF) (k0 : GF)).
Theorem Verify_safe junk fuel prf tp tps : (0 < width K)%nat -> wf_proof K prf ->
  safe_run K fuel (Verify K OW junk fuel prf tp tps).
Proof.
  intros Hw Hwf. rewrite (Verify_word K HG HR junk junkF fuel prf tp tps Hwf). apply Verify_gen.
  - exact (packed_def GF (toF P (vunit P), f0) (qsqrt P _ _) (qlt P _ _) (qenc P _ _) (dec_val P _ _) (qrand P _ _) K junkF qrand_short qrand_def).
  - intros t1 t2 t3 E0 E1.
    exact (responses_def GF (toF P (vunit P), f0) (qsqrt P _ _) (qlt P _ _) (qenc P _ _) (dec_val P _ _) (qrand P _ _)
      (two_nz P HG) (sqrt_GF P HG) (lt_GF_irr P HG) (lt_GF_trans P HG) (lt_GF_total P HG) maxi (max_class P HG) K HS junkF
      (accept_field K HG maxi small (max_cert P HG)) qrand_short qrand_def prf (p_resp prf) Hw
      (accept_field K HG maxi small (max_cert P HG) _ _ _ E0) (accept_field K HG maxi small (max_cert P HG) _ _ _ E1) tps t3).
Qed.
End WS.
