(** Square roots: fp2sqrt decides squareness in GF(p^2) and returns a root. *)
From Coq Require Import Znumtheory Field.
From Verif Require Import Base Out Params Wf FpP Fld FpRep FpMiscP Ops Models FieldOps.
Set Bullet Behavior "Strict Subproofs".

Section Sqrt.
Variable P : params.
Hypothesis HW : Wf P.
Hypothesis Hp : prime (par_p P).
Local Notation p := (par_p P).
Local Notation FP := (FP P HW Hp).
Definition Fth4 := Fp_field p Hp.
Add Field FpFd4 : Fth4.
Implicit Types a b x y t s v n : Fp p.

Lemma fmul_z x y : fmul x y = f0 -> x = f0 \/ y = f0.
Proof.
  intros E. destruct (Fp_dec p x f0) as [|N]; auto. right.
  replace y with (fdiv (fmul x y) x) by (field; auto). rewrite E. field; auto.
Qed.
Lemma fsub_eq x y : fsub x y = f0 -> x = y.
Proof. intros E. replace x with (fadd (fsub x y) y) by ring. rewrite E. ring. Qed.

Lemma p_form : exists k, 0 <= k /\ p = 4 * k + 3 /\ (p + 1) / 4 = k + 1 /\ (p - 3) / 4 = k.
Proof.
  pose proof (p4 P HW) as H4. pose proof (p_ge P HW). pose proof (Z.div_mod p 4 ltac:(lia)) as D. rewrite H4 in D.
  exists (p / 4). split; [apply Z.div_pos; lia|]. split; [lia|]. split.
  - replace (p + 1) with ((p / 4 + 1) * 4) by lia. apply Z.div_mul. lia.
  - replace (p - 3) with (p / 4 * 4) by lia. apply Z.div_mul. lia.
Qed.
Lemma fpow_p1 x : x <> f0 -> fpow x (p - 1) = f1.
Proof.
  intros N. pose proof (p_ge P HW). replace (p - 1) with (1 + (p - 2)) by lia.
  rewrite (fpow_add P) by lia. rewrite (fpow_1 P). change (fpow x (p - 2)) with (finv x). field. auto.
Qed.
(** x^(2k+1), p = 4k + 3 *)
Lemma half_pow x k : 0 <= k -> p = 4 * k + 3 -> x <> f0 -> fpow x (2 * k + 1) = f1 \/ fpow x (2 * k + 1) = fopp f1.
Proof.
  intros Hk E N. pose proof (fpow_p1 x N) as H1. replace (p - 1) with ((2 * k + 1) + (2 * k + 1)) in H1 by lia.
  rewrite (fpow_add P) in H1 by lia. set (u := fpow x (2 * k + 1)) in *.
  assert (Z0 : fmul (fsub u f1) (fadd u f1) = f0) by (transitivity (fsub (fmul u u) f1); [ring|]; rewrite H1; ring).
  apply fmul_z in Z0 as [Z0|Z0]; [left; now apply fsub_eq|right]. apply fsub_eq. rewrite <- Z0. ring.
Qed.
Lemma root_sq x : let t := fpow x ((p + 1) / 4) in fmul t t = x \/ fmul t t = fopp x.
Proof.
  destruct p_form as (k & Hk & E & E1 & E2). cbv zeta. rewrite E1.
  rewrite <- (fpow_add P) by lia. replace (k + 1 + (k + 1)) with (1 + (2 * k + 1)) by lia.
  rewrite (fpow_add P), (fpow_1 P) by lia.
  destruct (Fp_dec p x f0) as [->|N]; [left; ring|].
  destruct (half_pow x k Hk E N) as [-> | ->]; [left|right]; ring.
Qed.
Lemma pow_square n k : 0 <= k -> p = 4 * k + 3 -> n <> f0 -> fpow (fmul n n) (2 * k + 1) = f1.
Proof.
  intros Hk E N. rewrite <- (fpow_2 P). rewrite <- (fpow_mul P HW) by lia.
  replace (2 * (2 * k + 1)) with (p - 1) by lia. now apply fpow_p1.
Qed.
Lemma root_of_square n : let x := fmul n n in let t := fpow x ((p + 1) / 4) in fmul t t = x.
Proof.
  destruct p_form as (k & Hk & E & E1 & E2). cbv zeta. rewrite E1.
  rewrite <- (fpow_add P) by lia. replace (k + 1 + (k + 1)) with (1 + (2 * k + 1)) by lia.
  rewrite (fpow_add P), (fpow_1 P) by lia.
  destruct (Fp_dec p n f0) as [->|N]; [ring|]. rewrite (pow_square n k) by auto. ring.
Qed.

Lemma qpair (a b c d : Fp p) : a = c -> b = d -> ((a, b) : K2 FP) = (c, d).
Proof. now intros -> ->. Qed.
Lemma qmul_f (a b c d : Fp p) : qmul FP (a, b) (c, d) = (fsub (fmul a c) (fmul b d), fadd (fmul a d) (fmul b c)).
Proof. reflexivity. Qed.

(** The norm of x is a square in GF(p). *)
Lemma qsqrt_norm (x : K2 FP) (n : Fp p) : qnorm FP x = (fmul n n : FP) -> let y := qsqrt P HW Hp x in qmul FP y y = x.
Proof.
  destruct x as [a b]. intros Hn. cbv zeta. unfold qsqrt.
  change (fadd (fmul a a) (fmul b b) = fmul n n) in Hn.
  destruct p_form as (k & Hk & E & E1 & E2).
  destruct (Fp_dec p b f0) as [->|Nb].
  - pose proof (root_sq a) as R. cbv zeta in R. set (t := fpow a ((p + 1) / 4)) in *. clearbody t.
    destruct (Fp_dec p (fmul t t) a) as [Et|Nt].
    + rewrite qmul_f. apply qpair; [transitivity (fmul t t); [ring|auto]|ring].
    + destruct R as [R|R]; [contradiction|]. rewrite qmul_f. apply qpair; [|ring].
      transitivity (fopp (fmul t t)); [ring|]. rewrite R. ring.
  - rewrite Hn. pose proof (root_of_square n) as Rs. cbv zeta in Rs. rewrite <- Hn in Rs at 3.
    set (s := fpow (fmul n n) ((p + 1) / 4)) in *. clearbody s. clear Hn n.
    pose proof (two_ne0 P HW) as N2.
    assert (D2 : forall u : Fp p, fadd (fdiv u (mkF p 2)) (fdiv u (mkF p 2)) = u).
    { intros u. transitivity (fmul (fadd f1 f1) (fdiv u (mkF p 2))); [ring|].
      replace (fadd f1 f1) with (mkF p 2) by apply (mkF_add p 1 1). field. exact N2. }
    assert (C2 : forall u : Fp p, fadd u u = f0 -> u = f0).
    { intros u Eu. replace (fadd u u) with (fmul (fadd f1 f1) u) in Eu by ring.
      replace (fadd f1 f1) with (mkF p 2) in Eu by apply (mkF_add p 1 1). apply fmul_z in Eu as []; [contradiction|auto]. }
    pose proof (D2 (fadd a s)) as Dv. set (v := fdiv (fadd a s) (mkF p 2)) in *. clearbody v.
    replace (fdiv (fmul (fpow v ((p - 3) / 4)) b) (mkF p 2)) with (fmul (fpow v ((p - 3) / 4)) (fdiv b (mkF p 2)))
      by (unfold fdiv; ring).
    pose proof (D2 b) as I. set (h := fdiv b (mkF p 2)) in *. clearbody h. clear D2.
    assert (Sq : fmul h h = fsub (fmul v v) (fmul v a)).
    { apply fsub_eq, C2, C2.
      transitivity (fsub (fmul (fadd h h) (fadd h h)) (fmul (fadd v v) (fsub (fsub (fadd v v) a) a))); [ring|].
      rewrite I, Dv. transitivity (fsub (fadd (fmul a a) (fmul b b)) (fmul s s)); [ring|]. rewrite Rs. ring. }
    assert (Nv : v <> f0).
    { intros Ev. rewrite Ev in Sq. apply Nb. rewrite <- I.
      replace (fsub (fmul f0 f0) (fmul f0 a)) with (@f0 p) in Sq by ring.
      apply fmul_z in Sq. assert (h = f0) as -> by tauto. ring. }
    rewrite E2.
    assert (T2 : fmul (fmul v (fpow v k)) (fpow v k) = fpow v (2 * k + 1)).
    { replace (2 * k + 1) with (1 + (k + k)) by lia. rewrite !(fpow_add P), (fpow_1 P) by lia. ring. }
    set (t2 := fpow v k) in *. clearbody t2.
    destruct (half_pow v k Hk E Nv) as [Hx|Hx]; rewrite Hx in T2.
    + destruct (Fp_dec p v _) as [Ev|Nv'].
      * rewrite qmul_f. apply qpair.
        -- transitivity (fsub (fmul v (fmul (fmul v t2) t2)) (fmul (fmul t2 t2) (fmul h h))); [ring|].
           rewrite Sq. transitivity (fsub (fmul v (fmul (fmul v t2) t2)) (fmul (fmul (fmul v t2) t2) (fsub v a))); [ring|].
           rewrite T2. ring.
        -- transitivity (fmul (fmul (fmul v t2) t2) (fadd h h)); [ring|]. rewrite T2, I. ring.
      * exfalso. apply Nv'. transitivity (fmul v (fmul (fmul v t2) t2)); [rewrite T2; ring|ring].
    + destruct (Fp_dec p v _) as [Ev|Nv'].
      * exfalso. assert (E0 : v = fopp v).
        { rewrite Ev at 1. transitivity (fmul v (fmul (fmul v t2) t2)); [ring|]. rewrite T2. ring. }
        apply Nv, C2. rewrite E0 at 1. ring.
      * rewrite qmul_f. apply qpair.
        -- transitivity (fsub (fmul (fmul t2 t2) (fmul h h)) (fmul v (fmul (fmul v t2) t2))); [ring|].
           rewrite Sq. transitivity (fsub (fmul (fmul (fmul v t2) t2) (fsub v a)) (fmul v (fmul (fmul v t2) t2))); [ring|].
           rewrite T2. ring.
        -- transitivity (fopp (fmul (fmul (fmul v t2) t2) (fadd h h))); [ring|]. rewrite T2, I. ring.
Qed.
Lemma qsqrt_ok (x z : K2 FP) : x = qmul FP z z -> let y := qsqrt P HW Hp x in qmul FP y y = x.
Proof.
  intros ->. apply (qsqrt_norm _ (qnorm FP z)). destruct z as [c d].
  change (fadd (fmul (fsub (fmul c c) (fmul d d)) (fsub (fmul c c) (fmul d d)))
               (fmul (fadd (fmul c d) (fmul d c)) (fadd (fmul c d) (fmul d c)))
          = fmul (fadd (fmul c c) (fmul d d)) (fadd (fmul c c) (fmul d d))). ring.
Qed.
(** Elements of GF(p) are squares in GF(p^2). *)
Lemma qsqrt_real (a : Fp p) : let y := qsqrt P HW Hp (a, f0) in qmul FP y y = (a, f0).
Proof.
  cbv zeta. apply (qsqrt_norm _ a). change (fadd (fmul a a) (fmul f0 f0) = fmul a a). ring.
Qed.
Lemma fp2sqrt_field (x : K2 FP) :
  let (y, r) := fp2sqrt (field_ops P HW Hp) x false in
  (r = true -> qmul FP y y = x) /\ (r = false -> forall z, qmul FP z z <> x).
Proof.
  unfold fp2sqrt. cbn [o_sqrt o_eq o_sqr field_ops fld_ops FpRep.FP2 QF kmul kdec].
  destruct (K2_dec _ (qmul FP (qsqrt P HW Hp x) (qsqrt P HW Hp x)) x) as [E|N].
  - split; auto. discriminate.
  - split; [discriminate|]. intros _ z Ez. apply N. apply (qsqrt_ok x z). auto.
Qed.
End Sqrt.
