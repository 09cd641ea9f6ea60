(** The theory of curves with (p+1)^2 points for the fields GF(p^2) of the code (proofs only). *)
From Coq Require Import Znumtheory Permutation.
From Verif Require Import Base BaseP Digits DigitsP CombaP Out Params Fp Wf FpP Fld FpRep FpMisc FpMiscP PrimeInst FpInst Ops Ec Models Sim ModelsSim
  WordOps FieldOps WordSim CurveSpec ModelSpec WalkSpec OrderSpec SupSpec FldCurve GroupP MultP OrderP CountP CheckP WordCurve WordCheck PolyEv Hasse ClassP.
Set Bullet Behavior "Strict Subproofs".

(** Curves over GF(p^2) with (p+1)^2 points. *)
Notation maximalP P HG := (@maximal (GF P HG) (Z.to_nat (par_p P))).

Section WM.
Variable P : params.
Hypothesis HG : good P.
Local Notation HW := (FpInst.HW P HG). Local Notation Hp := (FpInst.Hp P HG).
Local Notation GF := (GF P HG).
Notation pz := (par_p P).
Definition pn : nat := Z.to_nat pz.
Lemma pn_z : Z.of_nat pn = pz. Proof. unfold pn. pose proof (prime_ge_2 _ Hp). lia. Qed.
Lemma pn_prime : prime (Z.of_nat pn). Proof. rewrite pn_z. exact Hp. Qed.
Definition fps : list (Fld.Fp pz) := map (fun i => mkF pz (Z.of_nat i)) (seq 0 pn).
Lemma fps_nodup : NoDup fps.
Proof.
  apply NoDup_map_in; [|apply seq_NoDup]. intros i j Hi Hj E. apply in_seq in Hi. apply in_seq in Hj. pose proof pn_z. apply mkF_eq in E. rewrite !Z.mod_small in E by lia. lia.
Qed.
Lemma fps_all x : In x fps.
Proof.
  pose proof pn_z as E. pose proof (prime_ge_2 _ Hp). pose proof (fval_bound pz x ltac:(lia)) as B. apply in_map_iff. exists (Z.to_nat (fval x)). split; [|apply in_seq; lia].
  rewrite Z2Nat.id by lia. apply mkF_fval.
Qed.
Definition gfs : list GF := list_prod fps fps.
Lemma gfs_nodup : NoDup gfs. Proof. apply (NoDup_prod fps fps fps_nodup fps_nodup). Qed.
Lemma gfs_all (x : GF) : In x gfs. Proof. destruct x as [a b]. apply (in_prod fps fps a b (fps_all a) (fps_all b)). Qed.
Lemma gfs_len : length gfs = (pn * pn)%nat.
Proof. transitivity (length fps * length fps)%nat; [exact (prod_length fps fps)|]. unfold fps. now rewrite map_length, seq_length. Qed.
Lemma kn_gf n : (kn n : GF) = ((mkF pz (Z.of_nat n), f0) : GF).
Proof.
  induction n as [|n IH]; [reflexivity|]. cbn [kn]. rewrite IH. change ((fadd f1 (mkF pz (Z.of_nat n)), fadd f0 f0) = ((mkF pz (Z.of_nat (S n)), f0) : Fld.Fp pz * Fld.Fp pz)). unfold f1, f0.
  rewrite <- !mkF_add. f_equal; f_equal; lia.
Qed.
Lemma kn_p : (kn pn : GF) = k0.
Proof. rewrite kn_gf, pn_z. change (@eq (Fld.Fp pz * Fld.Fp pz) (mkF pz pz, f0) (f0, f0)). unfold f0. f_equal. apply mkF_eq. rewrite Z_mod_same_full. now rewrite Z.mod_0_l by (pose proof (prime_ge_2 _ Hp); lia). Qed.
Lemma sq_m1 : exists i : GF, kmul i i = kopp k1.
Proof.
  exists ((f0, f1) : GF). change ((fsub (fmul f0 f0) (fmul f1 f1), fadd (fmul f0 f1) (fmul f1 f0)) = ((fopp f1, fopp f0) : Fld.Fp pz * Fld.Fp pz)). unfold f0, f1.
  rewrite <- !mkF_mul, <- mkF_sub, <- mkF_add, <- !mkF_opp. reflexivity.
Qed.
Lemma e2_3 : (3 <= e2 P)%nat.
Proof.
  pose proof (wf_shape P HW) as E. pose proof (wf_e2 P HW). pose proof (wf_radix P HW). pose proof (wf_zw P HW) as [Z1 _]. pose proof (wf_zeros P HW 0%nat Z1) as Z0.
  pose proof (wf_vpp1 P HW) as V. pose proof (wf_pp1 P HW) as [L _]. pose proof (wf_n1 P HW). destruct (w_pp1 P) as [|d l]; [cbn [length] in L; lia|]. cbn [nth] in Z0. subst d. cbn [valB] in V.
  destruct (Nat.eq_dec (e2 P) 2) as [E2|]; [|lia]. exfalso. rewrite E2 in E. change (2 ^ Z.of_nat 2) with 4 in E.
  assert (E8 : 2 ^ radix P = 8 * 2 ^ (radix P - 3)). { replace (radix P) with (3 + (radix P - 3)) at 1 by lia. rewrite Z.pow_add_r by lia. reflexivity. } rewrite E8 in V.
  assert (O : Z.odd (3 ^ Z.of_nat (e3 P)) = true). { pose proof (wf_e3 P HW). rewrite Z.odd_pow by lia. reflexivity. }
  assert (EV : 3 ^ Z.of_nat (e3 P) = 2 * (2 ^ (radix P - 3) * valB (8 * 2 ^ (radix P - 3)) l)) by lia.
  rewrite EV, Z.odd_mul in O. discriminate.
Qed.
Lemma odd_sq : exists m, (pn * pn = 2 * m + 1)%nat.
Proof.
  pose proof (FpRep.p4 P HW) as E. pose proof pn_z as Z. destruct (Nat.Even_or_Odd pn) as [[k Hk]|[k Hk]].
  - exfalso. assert (E2 : pz = 2 * Z.of_nat k) by lia. rewrite E2 in E. pose proof (Z.div_mod (2 * Z.of_nat k) 4). lia.
  - exists (2 * k * k + 2 * k)%nat. rewrite Hk. lia.
Qed.
Lemma shape_n : exists a, (pn + 1 = 2 ^ S (S (S a)) * 3 ^ e3 P)%nat.
Proof.
  pose proof e2_3. exists (e2 P - 3)%nat. replace (S (S (S (e2 P - 3)))) with (e2 P) by lia. apply Nat2Z.inj. rewrite Nat2Z.inj_add, pn_z, Nat2Z.inj_mul, !Nat2Z.inj_pow. exact (wf_shape P HW).
Qed.
Theorem hasse_GF (A : GF) l : kmul A A <> 4%F -> all_points A k1 l -> hasse pz (Z.of_nat (length l)).
Proof.
  intros HA Hl. rewrite <- pn_z. destruct odd_sq as [m Hm].
  exact (hasse_bound GF (two_nz P HG) gfs gfs_nodup gfs_all pn m pn_prime kn_p gfs_len Hm A HA l Hl).
Qed.
Theorem points_GF (A : GF) : kmul A A <> 4%F -> exists l, all_points A k1 l.
Proof. intros HA. destruct odd_sq as [m Hm]. eexists. exact (pts_all GF (two_nz P HG) gfs gfs_nodup gfs_all pn m gfs_len Hm A). Qed.
Theorem max_class : isog_class (maximalP P HG).
Proof.
  destruct odd_sq as [m Hm]. destruct shape_n as [a Ha].
  exact (maximal_class GF (two_nz P HG) gfs gfs_nodup gfs_all pn m pn_prime kn_p gfs_len Hm a (e3 P) Ha sq_m1).
Qed.
Theorem max_cert (A : GF) : kmul A A <> 4%F -> certified P A -> maximalP P HG A.
Proof.
  intros HA C. split; auto. destruct (points_GF A HA) as [l Hl]. exists l. split; auto.
  pose proof (certificate_count GF (fun x => x) (fun _ _ => false) (fun _ => nil) (fun _ => k0) (fun _ => NoTape) (two_nz P HG) P (shape1 P HG) A HA l C Hl (hasse_GF A l HA Hl)) as E.
  fold pn. pose proof pn_z. apply Nat2Z.inj. rewrite E, Nat2Z.inj_mul, Nat2Z.inj_add, pn_z. reflexivity.
Qed.
Theorem max_kill (A : GF) M : maximalP P HG A -> on A k1 M -> pmul A k1 (Z.to_nat (pz + 1)) M = Inf.
Proof.
  intros H HM. destruct odd_sq as [m Hm]. destruct shape_n as [a Ha]. pose proof pn_z as Z. replace (Z.to_nat (pz + 1)) with (pn + 1)%nat by lia.
  exact (ss_kill GF (two_nz P HG) gfs gfs_nodup gfs_all pn m pn_prime kn_p gfs_len Hm A M H HM).
Qed.
Hypothesis HR : rand_ok P.
Hypothesis small : exps32 P.
Theorem accept_count junk E tp tp' l : crng P E -> el P HG (cC E) = k1 -> Check_Curve (word_ops P) P junk E tp = Ok (true, tp') ->
  all_points (el P HG (cA E)) k1 l -> Z.of_nat (length l) = (pz + 1) * (pz + 1).
Proof.
  intros HE HC H Hl. destruct (Check_accept P HG HR small junk E tp tp' HE HC H) as [NS _].
  exact (Check_count P HG HR small junk E tp tp' l HE HC H Hl (hasse_GF _ l NS Hl)).
Qed.
Theorem check_exact junk E tp b tp' : crng P E -> el P HG (cC E) = k1 -> Check_Curve (word_ops P) P junk E tp = Ok (b, tp') ->
  (b = true <-> maximalP P HG (el P HG (cA E))).
Proof.
  intros HE HC H. split.
  - intros ->. destruct (Check_accept P HG HR small junk E tp tp' HE HC H) as [NS C]. exact (max_cert _ NS C).
  - intros M. destruct b; auto. exfalso. exact (Check_complete P HG HR junk E tp tp' HE HC (proj1 M) (fun R => max_kill _ R M) H).
Qed.
End WM.
