(** The mathematical fields: GF(p) and GF(p^2) = GF(p)[i], i^2 = -1, as types with Leibniz
    equality, and the notion of an arbitrary field used by the algebraic theorems. *)
From Coq Require Import Znumtheory Zpow_facts Field_theory Field Eqdep_dec.
From Verif Require Import Base Fermat.
Set Bullet Behavior "Strict Subproofs".

Record fld := mkFld {
  K :> Type;
  k0 : K; k1 : K;
  kadd : K -> K -> K; kmul : K -> K -> K; ksub : K -> K -> K; kopp : K -> K;
  kdiv : K -> K -> K; kinv : K -> K;
  kth : field_theory k0 k1 kadd kmul ksub kopp kdiv kinv (@eq K);
  kinv0 : kinv k0 = k0;
  kdec : forall x y : K, {x = y} + {x <> y}
}.
Arguments k0 {_}. Arguments k1 {_}. Arguments kadd {_}. Arguments kmul {_}. Arguments ksub {_}.
Arguments kopp {_}. Arguments kdiv {_}. Arguments kinv {_}. Arguments kdec {_}.

(** ** GF(p) as canonical representatives *)
Definition Fp (p : Z) : Type := { v : Z | (v mod p =? v) = true }.
Definition fval {p} (x : Fp p) : Z := proj1_sig x.
Lemma mkF_ok p z : ((z mod p) mod p =? z mod p) = true.
Proof. rewrite Zmod_mod. apply Z.eqb_refl. Qed.
Definition mkF (p z : Z) : Fp p := exist _ (z mod p) (mkF_ok p z).

Lemma Fp_ext p (x y : Fp p) : fval x = fval y -> x = y.
Proof.
  destruct x as [x Hx], y as [y Hy]. cbn. intros ->. f_equal. apply UIP_dec. decide equality.
Qed.
Lemma fval_mod p (x : Fp p) : fval x mod p = fval x.
Proof. destruct x as [x Hx]. cbn. now apply Z.eqb_eq. Qed.
Lemma fval_bound p (x : Fp p) : 0 < p -> 0 <= fval x < p.
Proof. intros H. rewrite <- fval_mod. now apply Z.mod_pos_bound. Qed.
Lemma mkF_fval p (x : Fp p) : mkF p (fval x) = x.
Proof. apply Fp_ext. cbn. apply fval_mod. Qed.
Lemma mkF_eq p a b : mkF p a = mkF p b <-> a mod p = b mod p.
Proof. split; [intros H; exact (f_equal fval H)|intros H; apply Fp_ext; exact H]. Qed.
Definition Fp_dec p (x y : Fp p) : {x = y} + {x <> y}.
Proof.
  destruct (Z.eq_dec (fval x) (fval y)) as [E|N]; [left; now apply Fp_ext|right; congruence].
Defined.

Definition fadd {p} (x y : Fp p) := mkF p (fval x + fval y).
Definition fsub {p} (x y : Fp p) := mkF p (fval x - fval y).
Definition fmul {p} (x y : Fp p) := mkF p (fval x * fval y).
Definition fopp {p} (x : Fp p) := mkF p (- fval x).
Definition f0 {p} := mkF p 0.
Definition f1 {p} := mkF p 1.
Definition fpow {p} (x : Fp p) (e : Z) := mkF p (fval x ^ e).
Definition finv {p} (x : Fp p) := fpow x (p - 2).
Definition fdiv {p} (x y : Fp p) := fmul x (finv y).

Lemma mkF_add p a b : mkF p (a + b) = fadd (mkF p a) (mkF p b).
Proof. apply mkF_eq. cbn. apply Zplus_mod. Qed.
Lemma mkF_sub p a b : mkF p (a - b) = fsub (mkF p a) (mkF p b).
Proof. apply mkF_eq. cbn. apply Zminus_mod. Qed.
Lemma mkF_mul p a b : mkF p (a * b) = fmul (mkF p a) (mkF p b).
Proof. apply mkF_eq. cbn. apply Zmult_mod. Qed.
Lemma mkF_opp p a : mkF p (- a) = fopp (mkF p a).
Proof.
  apply mkF_eq. cbn. rewrite <- !Z.sub_0_l.
  rewrite Zminus_mod, (Zminus_mod 0 (a mod p)), Zmod_mod. reflexivity.
Qed.
Lemma mkF_pow p a e : 0 < p -> mkF p (a ^ e) = fpow (mkF p a) e.
Proof. intros. apply mkF_eq. cbn. now apply Zpower_mod. Qed.

Lemma Fp_ring p : ring_theory (@f0 p) f1 fadd fmul fsub fopp (@eq (Fp p)).
Proof.
  constructor; intros;
    repeat match goal with x : Fp p |- _ => rewrite <- (mkF_fval p x); generalize (fval x); clear x; intros x end;
    unfold f0, f1; rewrite <- ?mkF_opp, <- ?mkF_sub, <- ?mkF_mul, <- ?mkF_add, <- ?mkF_mul, <- ?mkF_add;
    f_equal; ring.
Qed.

Lemma fermat1 p a : prime p -> a mod p <> 0 -> (a * a ^ (p - 2)) mod p = 1 mod p.
Proof.
  intros Hp Ha. pose proof (prime_ge_2 _ Hp) as H2.
  rewrite <- Z.pow_succ_r by lia. replace (Z.succ (p - 2)) with (p - 1) by lia.
  assert (E : (p | a * (a ^ (p - 1) - 1))).
  { apply Z.mod_divide; [lia|]. rewrite Z.mul_sub_distr_l, <- Z.pow_succ_r by lia.
    replace (Z.succ (p - 1)) with p by lia. rewrite Z.mul_1_r, Zminus_mod, fermat_Z by auto.
    rewrite Z.sub_diag. apply Z.mod_0_l. lia. }
  apply prime_mult in E; auto. destruct E as [E|E].
  - exfalso. apply Ha. apply Z.mod_divide; auto. lia.
  - destruct E as [k E]. replace (a ^ (p - 1)) with (1 + k * p) by lia. apply Z_mod_plus_full.
Qed.

Lemma Fp_field p : prime p ->
  field_theory (@f0 p) f1 fadd fmul fsub fopp fdiv finv (@eq (Fp p)).
Proof.
  intros Hp. pose proof (prime_ge_2 _ Hp) as H2. constructor.
  - apply Fp_ring.
  - intros E. apply mkF_eq in E. rewrite Z.mod_1_l, Z.mod_0_l in E by lia. discriminate.
  - reflexivity.
  - intros x Hx. unfold finv, fpow, f1. rewrite <- (mkF_fval p x) at 2.
    rewrite <- mkF_mul. apply mkF_eq. rewrite Z.mul_comm. apply fermat1; auto.
    intros E. apply Hx. rewrite <- (mkF_fval p x). apply mkF_eq. rewrite E, Z.mod_0_l; lia.
Qed.

Lemma finv_0 p : prime p -> p <> 2 -> finv (@f0 p) = f0.
Proof.
  intros Hp N. pose proof (prime_ge_2 _ Hp) as H2.
  apply mkF_eq. cbn [fval f0 mkF proj1_sig]. rewrite (Z.mod_0_l p) by lia. rewrite Z.pow_0_l by lia. reflexivity.
Qed.
Lemma finv_0_2 : finv (@f0 2) = f0 -> False.
Proof. intros H. apply mkF_eq in H. vm_compute in H. discriminate. Qed.

Definition FpF (p : Z) (Hp : prime p) (N : p <> 2) : fld :=
  mkFld (Fp p) f0 f1 fadd fmul fsub fopp fdiv finv (Fp_field p Hp) (finv_0 p Hp N) (Fp_dec p).

(** ** Quadratic extension by i^2 = -1 *)
Section Quad.
Variable F : fld.
Definition Kth := kth F.
Add Field Kf : Kth.
Local Notation "x + y" := (kadd x y). Local Notation "x * y" := (kmul x y).
Local Notation "x - y" := (ksub x y). Local Notation "- x" := (kopp x).
Local Notation "0" := k0. Local Notation "1" := k1.

Definition K2 : Type := K F * K F.
Definition qadd (x y : K2) : K2 := (fst x + fst y, snd x + snd y).
Definition qsub (x y : K2) : K2 := (fst x - fst y, snd x - snd y).
Definition qmul (x y : K2) : K2 := (fst x * fst y - snd x * snd y, fst x * snd y + snd x * fst y).
Definition qopp (x : K2) : K2 := (- fst x, - snd x).
Definition qnorm (x : K2) : K F := fst x * fst x + snd x * snd x.
Definition qinv (x : K2) : K2 := let n := kinv (qnorm x) in (fst x * n, - snd x * n).
Definition qdiv (x y : K2) : K2 := qmul x (qinv y).
Definition q0 : K2 := (0, 0).
Definition q1 : K2 := (1, 0).
Definition qconj (x : K2) : K2 := (fst x, - snd x).

Lemma K2_ring : ring_theory q0 q1 qadd qmul qsub qopp (@eq K2).
Proof.
  constructor; intros; repeat match goal with x : K2 |- _ => destruct x end;
    unfold q0, q1, qadd, qsub, qmul, qopp; cbn [fst snd]; f_equal; ring.
Qed.

(** -1 is not a square. *)
Definition anisotropic : Prop := forall x y : K F, x * x + y * y = 0 -> x = 0 /\ y = 0.
Hypothesis A : anisotropic.

Lemma K2_field : field_theory q0 q1 qadd qmul qsub qopp qdiv qinv (@eq K2).
Proof.
  constructor.
  - exact K2_ring.
  - intros E. apply (F_1_neq_0 (kth F)). exact (f_equal fst E).
  - reflexivity.
  - intros [x y] N. unfold qmul, qinv, q1, qnorm; cbn [fst snd].
    assert (x * x + y * y <> 0).
    { intros E. apply A in E as [-> ->]. apply N. reflexivity. }
    f_equal; field; auto.
Qed.
Lemma qinv0 : qinv q0 = q0.
Proof.
  unfold qinv, q0, qnorm; cbn [fst snd]. f_equal; ring.
Qed.
Definition K2_dec (x y : K2) : {x = y} + {x <> y}.
Proof.
  destruct x as [a b], y as [c d].
  destruct (kdec a c) as [->|]; [destruct (kdec b d) as [->|]; [left; reflexivity|]|]; right; congruence.
Defined.
Definition QF : fld := mkFld K2 q0 q1 qadd qmul qsub qopp qdiv qinv K2_field qinv0 K2_dec.
End Quad.

(** -1 is not a square modulo a prime p = 3 (mod 4). *)
Lemma Fp_anisotropic p (Hp : prime p) (N : p <> 2) : p mod 4 = 3 -> anisotropic (FpF p Hp N).
Proof.
  intros H4 x y E. pose proof (prime_ge_2 _ Hp) as H2.
  change (fadd (fmul x x) (fmul y y) = f0) in E. change (x = f0 /\ y = f0).
  assert (S : forall u v : Fp p, fadd (fmul u u) (fmul v v) = f0 -> u = f0).
  { clear x y E. intros x y E.
    destruct (Fp_dec p x f0) as [|Nx]; auto. exfalso.
    rewrite <- (mkF_fval p x), <- (mkF_fval p y) in E. rewrite <- !mkF_mul, <- mkF_add in E.
    apply mkF_eq in E. rewrite Z.mod_0_l in E by lia.
    set (a := fval x) in *. set (b := fval y) in *.
    assert (Ha : a mod p <> 0).
    { unfold a. rewrite fval_mod. intros Z0. apply Nx, Fp_ext. rewrite Z0. reflexivity. }
    assert (Hsq : (a * a) mod p = (- (b * b)) mod p).
    { apply Z.mod_divide in E; [|lia]. destruct E as [k E].
      replace (a * a) with (- (b * b) + k * p) by lia. apply Z_mod_plus_full. }
    set (k := (p - 3) / 4).
    assert (Ep : p = 4 * k + 3).
    { unfold k. pose proof (Z.div_mod p 4 ltac:(lia)) as D. rewrite H4 in D.
      replace (p - 3) with (p / 4 * 4) by lia. rewrite Z.div_mul by lia. lia. }
    assert (Hk : 0 <= k) by lia.
    assert (Pa : (a * a ^ (p - 2)) mod p = 1 mod p) by (apply fermat1; auto).
    assert (Hb : b mod p <> 0).
    { intros Hb. assert ((a * a) mod p = 0).
      { rewrite Hsq. rewrite <- Z.mul_opp_l, Zmult_mod, Hb, Z.mul_0_r. apply Z.mod_0_l; lia. }
      apply Z.mod_divide in H; [|lia]. apply prime_mult in H; auto.
      apply Ha, Z.mod_divide; [lia|]. tauto. }
    assert (Pb : (b * b ^ (p - 2)) mod p = 1 mod p) by (apply fermat1; auto).
    assert (W : forall c, c * c ^ (p - 2) = (c * c) ^ (2 * k + 1)).
    { intros c. clear - Ep Hk. rewrite <- Z.pow_succ_r by lia.
      replace (Z.succ (p - 2)) with (2 * (2 * k + 1)) by lia.
      rewrite Z.pow_mul_r by lia. rewrite Z.pow_2_r. reflexivity. }
    rewrite W in Pa, Pb.
    rewrite Zpower_mod in Pa by lia. rewrite Hsq in Pa. rewrite <- Zpower_mod in Pa by lia.
    assert (O : (- (b * b)) ^ (2 * k + 1) = - (b * b) ^ (2 * k + 1)).
    { rewrite Z.pow_opp_odd; auto. exists k. lia. }
    rewrite O in Pa.
    assert (C : (p | 2)).
    { apply Z.mod_divide; [lia|]. replace 2 with (1 - (-1)) by lia.
      rewrite <- (Z.sub_0_r (1 - -1)).
      assert (X : ((b * b) ^ (2 * k + 1) + - (b * b) ^ (2 * k + 1)) mod p = (1 + 1) mod p).
      { rewrite Zplus_mod, Pa, Pb, <- Zplus_mod. reflexivity. }
      rewrite Z.add_opp_diag_r, Z.mod_0_l in X by lia. symmetry. exact X. }
    apply Z.divide_pos_le in C; lia. }
  split; [apply (S x y E)|]. apply (S y x).
  rewrite (Radd_comm (Fp_ring p)). exact E.
Qed.
