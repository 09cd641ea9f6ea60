(** The x-only formulas of Ec.v over a field agree with the chord-and-tangent law. *)
From Coq Require Import Field.
From Verif Require Import Base Out Ops Ec Fld FieldOps CurveSpec.
Set Bullet Behavior "Strict Subproofs".

Section FC.
Variable F : fld.
Variables (unit : F) (sqrt : F -> F) (lt : F -> F -> bool) (enc : F -> list Z) (dec : list Z -> F) (rnd : tape -> out (F * tape)).
Local Notation O := (fld_ops F unit sqrt lt enc dec rnd).
Hypothesis two : (kadd k1 k1 : F) <> k0.
Local Open Scope fld_scope.
Definition kth' := kth F.
Add Field KF : kth'.

Lemma mul_nz (x y : F) : x <> 0 -> y <> 0 -> x * y <> 0.
Proof.
  intros Hx Hy E. apply Hx. replace x with ((x * y) / y) by (field; auto). rewrite E. field; auto.
Qed.
Lemma mul_nz_inv (x y : F) : x * y <> 0 -> x <> 0 /\ y <> 0.
Proof. intros H. split; intros E; apply H; rewrite E; ring. Qed.
Lemma mul_z (x y : F) : x * y = 0 -> x = 0 \/ y = 0.
Proof. intros E. destruct (kdec x 0) as [|Nx]; auto. destruct (kdec y 0) as [|Ny]; auto. now apply (mul_nz x y) in E. Qed.
Lemma sqr_z (x : F) : x * x = 0 -> x = 0.
Proof. intros E. now destruct (mul_z _ _ E). Qed.
Lemma sub_eq (x y : F) : x - y = 0 -> x = y.
Proof. intros E. replace x with (x - y + y) by ring. rewrite E. ring. Qed.
Lemma sub_nz (x y : F) : x <> y -> x - y <> 0.
Proof. intros N E. now apply N, sub_eq. Qed.
Lemma one_nz : (1 : F) <> 0. Proof. apply (Field_theory.F_1_neq_0 (kth F)). Qed.
Lemma four_nz : (4 : F) <> 0. Proof. now apply mul_nz. Qed.
Lemma neg_nz (x : F) : x <> 0 -> - x <> 0.
Proof. intros N E. apply N. replace x with (- - x) by ring. rewrite E. ring. Qed.
Ltac fsd := repeat match goal with |- _ /\ _ => split end; first [assumption | exact two | exact four_nz | apply neg_nz; assumption].
Lemma mul_cancel (x y z : F) : z <> 0 -> x * z = y * z -> x = y.
Proof. intros N E. replace x with (x * z / z) by (field; auto). rewrite E. field; auto. Qed.

Variables A B : F.
Hypothesis HA : A * A <> 4.
Hypothesis HB : B <> 0.
Local Notation fx := (fx A). Local Notation on := (on A B). Local Notation padd := (padd A B).

(** A root of the right hand side is not +1 or -1; +1, -1 are singular only for A = -2, 2. *)
Lemma fx0 x : fx x = 0 -> x = 0 \/ x * x + A * x + 1 = 0.
Proof. intros E. apply mul_z. rewrite <- E. unfold CurveSpec.fx. ring. Qed.
Lemma root_ne x : x * x + A * x + 1 = 0 -> x * x <> 1.
Proof.
  intros E E1. apply HA. rewrite E1 in E.
  assert (Ax : A * x = 0 - 2) by (replace (A * x) with (1 + A * x + 1 - 2) by ring; rewrite E; ring).
  replace (A * A) with (A * A * (x * x)) by (rewrite E1; ring).
  replace (A * A * (x * x)) with ((A * x) * (A * x)) by ring. rewrite Ax. ring.
Qed.
Lemma y0 x y : on (Aff x y) -> (y = 0 <-> fx x = 0).
Proof.
  cbn [CurveSpec.on]. intros E. rewrite <- E. split; [intros ->; ring|].
  intros Z0. destruct (mul_z _ _ Z0) as [|Z1]; [contradiction|]. now apply sqr_z.
Qed.
Lemma y_add0 (y : F) : y + y = 0 <-> y = 0.
Proof.
  split; [|intros ->; ring]. intros E. replace (y + y) with (2 * y) in E by ring.
  destruct (mul_z _ _ E); auto. contradiction.
Qed.

(** Closed forms of the code. *)
Lemma xDBL_form (P : pt O) a c : xDBL O P a c =
  @mkPt O ((pX P + pZ P) * (pX P + pZ P) * (c * ((pX P - pZ P) * (pX P - pZ P))))
       ((c * ((pX P - pZ P) * (pX P - pZ P)) + a * ((pX P + pZ P) * (pX P + pZ P) - (pX P - pZ P) * (pX P - pZ P)))
        * ((pX P + pZ P) * (pX P + pZ P) - (pX P - pZ P) * (pX P - pZ P))).
Proof. reflexivity. Qed.

Definition xzp (P : pt O) (M : point F) : Prop := xz (pX P) (pZ P) M.

Lemma double_x x y : on (Aff x y) -> y <> 0 ->
  exists y2, padd (Aff x y) (Aff x y) = Aff ((x * x - 1) * (x * x - 1) / (4 * fx x)) y2.
Proof.
  intros Hon Hy. cbn [CurveSpec.padd]. destruct (kdec x x) as [_|]; [|congruence].
  destruct (kdec (y + y) 0) as [E|_]; [exfalso; apply Hy; now apply y_add0|].
  unfold chord. eexists. apply f_equal2; [|reflexivity]. cbn [CurveSpec.on] in Hon. rewrite <- Hon.
  assert (E : (3 * (x * x) + 2 * (A * x) + 1) * (3 * (x * x) + 2 * (A * x) + 1) - 4 * (A + x + x) * (B * (y * y))
              = (x * x - 1) * (x * x - 1)).
  { rewrite Hon. unfold CurveSpec.fx. ring. }
  rewrite <- E. field. fsd.
Qed.

Theorem xDBL_ok (P : pt O) a c M : on M -> xzp P M -> c <> 0 -> 4 * a = (A + 2) * c -> xzp (xDBL O P a c) (padd M M).
Proof.
  destruct P as [X Z]. unfold xzp. rewrite xDBL_form. cbn [pX pZ]. intros Hon HP Hc Ha.
  destruct M as [|x y]; cbn [xz CurveSpec.padd] in *.
  - destruct HP as [HX ->]. split; [|ring].
    replace ((X + 0) * (X + 0) * (c * ((X - 0) * (X - 0)))) with (c * (X * X) * (X * X)) by ring.
    auto using mul_nz.
  - destruct HP as [HZ ->].
    assert (ZZ : (c * ((x * Z - Z) * (x * Z - Z)) + a * ((x * Z + Z) * (x * Z + Z) - (x * Z - Z) * (x * Z - Z)))
                 * ((x * Z + Z) * (x * Z + Z) - (x * Z - Z) * (x * Z - Z)) = 4 * c * (fx x) * (Z * Z * (Z * Z))).
    { transitivity ((c * ((x - 1) * (x - 1)) + (4 * a) * x) * (4 * x) * (Z * Z * (Z * Z))); [ring|].
      rewrite Ha. unfold CurveSpec.fx. ring. }
    rewrite ZZ. clear ZZ.
    replace ((x * Z + Z) * (x * Z + Z) * (c * ((x * Z - Z) * (x * Z - Z)))) with
      (c * ((x * x - 1) * (x * x - 1)) * (Z * Z * (Z * Z))) by ring.
    destruct (kdec y 0) as [->|Ny].
    + destruct (kdec x x) as [_|]; [|congruence]. destruct (kdec (0 + 0) 0) as [_|N]; [|exfalso; apply N; ring].
      assert (E0 : fx x = 0) by (apply (y0 x 0 Hon); reflexivity).
      rewrite E0. cbn [xz]. split; [|ring].
      assert (Hx : x * x - 1 <> 0).
      { destruct (fx0 _ E0) as [->|R]; [|apply sub_nz; now apply root_ne].
        intros E. apply one_nz. replace (1 : F) with (- (0 * 0 - 1) : F) by ring. rewrite E. ring. }
      repeat apply mul_nz; auto.
    + destruct (double_x x y Hon Ny) as [y2 E2]. cbn [CurveSpec.padd] in E2. rewrite E2. cbn [xz].
      assert (fx x <> 0) by (intros E; apply Ny; now apply (y0 x y Hon)).
      split.
      * repeat apply mul_nz; auto.
      * field. fsd.
Qed.

(** ** Tripling *)
Definition psi3 (x : F) : F := 3 * (x * x * (x * x)) + 4 * (A * (x * x * x)) + 2 * (3 * (x * x)) - 1.
Definition tht (x : F) : F := x * x * (x * x) - 2 * (3 * (x * x)) - 4 * (A * x) - 3.
Lemma psi3_dbl x : (x * x - 1) * (x * x - 1) - 4 * (x * fx x) = - psi3 x.
Proof. unfold psi3, CurveSpec.fx. ring. Qed.
Lemma tpl_id x : x * (psi3 x * psi3 x) - 2 * 4 * ((3 * (x * x) + 2 * (A * x) + 1) * fx x * psi3 x) + 4 * 4 * 4 * (fx x * fx x * fx x)
  = x * (tht x * tht x).
Proof. unfold psi3, tht, CurveSpec.fx. ring. Qed.
Lemma xTPL_form (P : pt O) am ap s : am = (A - 2) * s -> ap = (A + 2) * s -> forall x, pX P = x * pZ P ->
  xTPL O P am ap = @mkPt O (2 * 4 * 4 * (s * s) * (x * (tht x * tht x)) * (pZ P * (pZ P * pZ P * (pZ P * pZ P)) * (pZ P * pZ P * (pZ P * pZ P))))
                           (2 * 4 * 4 * (s * s) * (psi3 x * psi3 x) * (pZ P * (pZ P * pZ P * (pZ P * pZ P)) * (pZ P * pZ P * (pZ P * pZ P)))).
Proof.
  intros -> -> x HX. destruct P as [X Z]. cbn [pX pZ] in *. subst X. unfold tht, psi3.
  unfold xTPL. cbn [pX pZ fld_ops o_msub o_madd o_sqr o_mul o_add o_sub]. f_equal; ring.
Qed.
Lemma xTPL_inf (P : pt O) am ap s : am = (A - 2) * s -> ap = (A + 2) * s -> pZ P = 0 ->
  xTPL O P am ap = @mkPt O (2 * 4 * 4 * (s * s) * (pX P * (pX P * pX P * (pX P * pX P)) * (pX P * pX P * (pX P * pX P)))) 0.
Proof.
  intros -> -> HZ. destruct P as [X Z]. cbn [pX pZ] in *. subst Z.
  unfold xTPL. cbn [pX pZ fld_ops o_msub o_madd o_sqr o_mul o_add o_sub]. f_equal; ring.
Qed.

Lemma padd_inf_r M : padd M Inf = M. Proof. destruct M; reflexivity. Qed.

Theorem xTPL_ok (P : pt O) am ap s M : on M -> xzp P M -> s <> 0 -> am = (A - 2) * s -> ap = (A + 2) * s ->
  xzp (xTPL O P am ap) (padd M (padd M M)).
Proof.
  intros Hon HP Hs Em Ep. unfold xzp in *. destruct M as [|x y].
  { destruct HP as [HX HZ]. rewrite (xTPL_inf P am ap s Em Ep HZ). cbn [pX pZ CurveSpec.padd xz].
    split; [|reflexivity]. repeat apply mul_nz; auto. }
  cbn [xz] in HP. destruct HP as [HZ HX]. rewrite (xTPL_form P am ap s Em Ep x HX). clear HX Em Ep.
  set (z := pZ P * _ * _). assert (Hz : z <> 0) by (unfold z; repeat apply mul_nz; auto). clearbody z. clear HZ.
  cbn [pX pZ]. assert (C : 2 * 4 * 4 * (s * s) * z <> 0) by (repeat apply mul_nz; auto).
  destruct (kdec y 0) as [Ey|Ny].
  - assert (E0 : fx x = 0) by (apply (y0 x y Hon); auto).
    assert (D : padd (Aff x y) (Aff x y) = Inf).
    { cbn [CurveSpec.padd]. destruct (kdec x x) as [_|]; [|congruence].
      destruct (kdec (y + y) 0) as [_|N]; auto. exfalso; apply N. subst; ring. }
    rewrite D, padd_inf_r. cbn [xz].
    assert (Q : x = 0 \/ psi3 x = - tht x).
    { destruct (fx0 _ E0) as [|R]; auto. right.
      replace (psi3 x) with (- tht x + 4 * (x * x - 1) * (x * x + A * x + 1)) by (unfold psi3, tht; ring).
      rewrite R. ring. }
    assert (N : psi3 x <> 0).
    { intros E. pose proof (psi3_dbl x) as E1. rewrite E, E0 in E1.
      replace (_ - _) with ((x * x - 1) * (x * x - 1)) in E1 by ring. replace (- 0) with (0 : F) in E1 by ring.
      apply sqr_z, sub_eq in E1. destruct (fx0 _ E0) as [Hx|R]; [|now apply root_ne in R].
      apply one_nz. rewrite <- E1, Hx. ring. }
    split; [repeat apply mul_nz; auto|].
    destruct Q as [->|Q]; [ring|]. rewrite Q. ring.
  - destruct (double_x x y Hon Ny) as [y2 D]. pose proof D as D'. rewrite D.
    assert (Nf : fx x <> 0) by (intros E; apply Ny; now apply (y0 x y Hon)).
    cbn [CurveSpec.padd] in D'. destruct (kdec x x) as [_|]; [|congruence].
    destruct (kdec (y + y) 0) as [E|Nyy]; [discriminate|].
    unfold chord in D'. set (sl := (3 * (x * x) + 2 * (A * x) + 1) / (2 * (B * y))) in *.
    set (x2 := (x * x - 1) * (x * x - 1) / (4 * fx x)) in *.
    assert (X2 : B * (sl * sl) - A - x - x = x2) by congruence.
    assert (Y2 : y2 = sl * (x - x2) - y) by (rewrite <- X2; congruence).
    assert (Dx : x2 - x = - psi3 x / (4 * fx x)).
    { unfold x2. rewrite <- psi3_dbl. field. fsd. }
    cbn [CurveSpec.padd].
    destruct (kdec (psi3 x) 0) as [E3|N3].
    + assert (x = x2) as <-.
      { symmetry. apply sub_eq. rewrite Dx, E3. field. fsd. }
      destruct (kdec x x) as [_|]; [|congruence].
      destruct (kdec (y + y2) 0) as [_|N]; [|exfalso; apply N; rewrite Y2; ring].
      cbn [xz]. split; [|rewrite E3; ring].
      assert (T : x * (tht x * tht x) <> 0).
      { rewrite <- tpl_id, E3. replace (_ - _ + _) with (4 * 4 * 4 * (fx x * fx x * fx x)) by ring. repeat apply mul_nz; auto. }
      apply mul_nz_inv in T as [T1 T]. apply mul_nz_inv in T as [T2 T3]. repeat apply mul_nz; auto.
    + assert (Nx : x <> x2).
      { intros E. apply N3. assert (E' : x2 - x = 0) by (rewrite <- E; ring). rewrite Dx in E'.
        replace (psi3 x) with (- (- psi3 x / (4 * fx x)) * (4 * fx x)) by (field; fsd). rewrite E'. ring. }
      destruct (kdec x x2) as [|_]; [contradiction|]. unfold chord. cbn [xz].
      split; [repeat apply mul_nz; auto|].
      assert (Sl : (y2 - y) / (x2 - x) = 2 * 4 * (y * fx x) / psi3 x - sl).
      { rewrite Y2. assert (x2 - x <> 0) by (apply sub_nz; auto).
        transitivity (- sl - 2 * y / (x2 - x)); [field; fsd|]. rewrite Dx.
        set (ps := psi3 x) in *. set (f := fx x) in *. field. fsd. }
      rewrite Sl.
      assert (X3 : B * ((2 * 4 * (y * fx x) / psi3 x - sl) * (2 * 4 * (y * fx x) / psi3 x - sl)) - A - x - x2
                   = x * (tht x * tht x) / (psi3 x * psi3 x)).
      { rewrite <- tpl_id. rewrite <- X2.
        transitivity (x + 4 * 4 * 4 * ((B * (y * y)) * (fx x * fx x)) / (psi3 x * psi3 x)
                        - 2 * 4 * (2 * B * y * sl) * fx x / psi3 x); [field; fsd|].
        cbn [CurveSpec.on] in Hon. rewrite Hon. unfold sl. field. fsd. }
      rewrite X3. field. fsd.
Qed.

(** ** Differential addition *)
Lemma diff_id x1 y1 x2 y2 : on (Aff x1 y1) -> on (Aff x2 y2) ->
  (B * ((y2 - y1) * (y2 - y1)) - (A + x1 + x2) * ((x2 - x1) * (x2 - x1))) *
  (B * ((y2 + y1) * (y2 + y1)) - (A + x1 + x2) * ((x2 - x1) * (x2 - x1))) =
  (x1 * x2 - 1) * (x1 * x2 - 1) * ((x2 - x1) * (x2 - x1)).
Proof.
  cbn [CurveSpec.on]. intros H1 H2.
  transitivity ((B * (y1 * y1) + B * (y2 * y2) - (A + x1 + x2) * ((x2 - x1) * (x2 - x1))) *
                (B * (y1 * y1) + B * (y2 * y2) - (A + x1 + x2) * ((x2 - x1) * (x2 - x1)))
                - 4 * (B * (y1 * y1)) * (B * (y2 * y2))); [ring|].
  rewrite H1, H2. unfold CurveSpec.fx. ring.
Qed.
Lemma xDBLADD_form (P Q : pt O) X Z a : xDBLADD O P Q X Z a =
  (xDBL O P a 1,
   @mkPt O (4 * ((pX P * pX Q - pZ P * pZ Q) * (pX P * pX Q - pZ P * pZ Q)) * Z)
           (4 * ((pZ P * pX Q - pX P * pZ Q) * (pZ P * pX Q - pX P * pZ Q)) * X)).
Proof.
  unfold xDBLADD, xDBL. cbn [pX pZ fld_ops o_msub o_madd o_sqr o_mul o_add o_sub].
  f_equal; f_equal; ring.
Qed.
Lemma on_y_eq x y y' : on (Aff x y) -> on (Aff x y') -> y = y' \/ y + y' = 0.
Proof.
  cbn [CurveSpec.on]. intros H1 H2. rewrite <- H2 in H1.
  assert (E : B * ((y - y') * (y + y')) = 0).
  { transitivity (B * (y * y) - B * (y' * y')); [ring|]. rewrite H1. ring. }
  destruct (mul_z _ _ E) as [|E1]; [contradiction|]. destruct (mul_z _ _ E1) as [E2|]; auto.
  left. now apply sub_eq.
Qed.
Theorem xADD_ok (P Q : pt O) X Z a M N : on M -> on N -> xzp P M -> xzp Q N -> xz X Z (padd M (neg N)) ->
  X <> 0 -> Z <> 0 -> xzp (snd (xDBLADD O P Q X Z a)) (padd M N).
Proof.
  intros HM HN HP HQ HD NX NZ. rewrite xDBLADD_form. unfold xzp in *. cbn [snd pX pZ].
  destruct M as [|x1 y1]; [destruct N as [|x2 y2]|destruct N as [|x2 y2]]; cbn [xz neg CurveSpec.padd] in *.
  - now destruct HD.
  - destruct HP as [HX1 HZ1], HQ as [HZ2 HX2], HD as [_ HX]. rewrite HZ1, HX2, HX.
    assert (x2 <> 0) by (intros ->; apply NX; rewrite HX; ring).
    split; [|ring].
    replace (4 * ((0 * (x2 * pZ Q) - pX P * pZ Q) * (0 * (x2 * pZ Q) - pX P * pZ Q)) * (x2 * Z)) with
      (4 * (pX P * pX P) * (pZ Q * pZ Q) * (x2 * Z)) by ring. repeat apply mul_nz; auto.
  - destruct HQ as [HX2 HZ2], HP as [HZ1 HX1], HD as [_ HX]. rewrite HX1, HZ2, HX.
    assert (x1 <> 0) by (intros ->; apply NX; rewrite HX; ring).
    split; [|ring].
    replace (4 * ((pZ P * pX Q - x1 * pZ P * 0) * (pZ P * pX Q - x1 * pZ P * 0)) * (x1 * Z)) with
      (4 * (pX Q * pX Q) * (pZ P * pZ P) * (x1 * Z)) by ring. repeat apply mul_nz; auto.
  - destruct HP as [HZ1 HX1], HQ as [HZ2 HX2]. rewrite HX1, HX2.
    destruct (kdec x1 x2) as [<-|Nx].
    + destruct (kdec (y1 + - y2) 0) as [E|Ny]; [cbn [xz] in HD; tauto|].
      destruct (on_y_eq _ _ _ HM HN) as [->|E]; [exfalso; apply Ny; ring|].
      destruct (kdec (y1 + y2) 0) as [_|]; [|contradiction]. cbn [xz].
      split; [|ring].
      assert (y2 = - y1) as -> by (apply sub_eq; rewrite <- E; ring).
      assert (Hy1 : y1 <> 0) by (intros ->; apply Ny; ring).
      destruct (double_x x1 y1 HM Hy1) as [y3 D]. cbn [CurveSpec.padd] in D.
      destruct (kdec x1 x1) as [_|]; [|congruence].
      destruct (kdec (y1 + y1) 0) as [E2|_]; [exfalso; apply Hy1; now apply y_add0|].
      rewrite D in HD. cbn [xz] in HD. destruct HD as [_ HX].
      assert (Nx : x1 * x1 - 1 <> 0).
      { intros E1. apply NX. rewrite HX, E1.
        assert (fx x1 <> 0) by (intros E3; apply Hy1; now apply (y0 x1 y1 HM)). field. fsd. }
      replace (x1 * pZ P * (x1 * pZ Q) - pZ P * pZ Q) with ((x1 * x1 - 1) * (pZ P * pZ Q)) by ring.
      repeat apply mul_nz; auto.
    + unfold chord in *. cbn [xz] in *. destruct HD as [_ HX].
      assert (Nd : x2 - x1 <> 0) by (apply sub_nz; auto).
      pose proof (diff_id x1 y1 x2 y2 HM HN) as Id.
      set (u := B * ((y2 - y1) * (y2 - y1)) - (A + x1 + x2) * ((x2 - x1) * (x2 - x1))) in *.
      set (v := B * ((y2 + y1) * (y2 + y1)) - (A + x1 + x2) * ((x2 - x1) * (x2 - x1))) in *.
      assert (Eu : B * ((y2 - y1) / (x2 - x1) * ((y2 - y1) / (x2 - x1))) - A - x1 - x2 = u / ((x2 - x1) * (x2 - x1)))
        by (unfold u; field; fsd).
      assert (Ev : B * ((- y2 - y1) / (x2 - x1) * ((- y2 - y1) / (x2 - x1))) - A - x1 - x2 = v / ((x2 - x1) * (x2 - x1)))
        by (unfold v; field; fsd).
      rewrite Eu. rewrite Ev in HX. clear Eu Ev.
      split.
      * replace (pZ P * (x2 * pZ Q) - x1 * pZ P * pZ Q) with ((x2 - x1) * (pZ P * pZ Q)) by ring.
        repeat apply mul_nz; auto.
      * rewrite HX.
        transitivity (4 * ((x1 * x2 - 1) * (x1 * x2 - 1) * ((x2 - x1) * (x2 - x1))) * (pZ P * pZ Q * (pZ P * pZ Q)) * Z
                      / ((x2 - x1) * (x2 - x1))); [field; fsd|].
        rewrite <- Id. field. fsd.
Qed.
Theorem xDBLADD_dbl (P Q : pt O) X Z a M : on M -> xzp P M -> 4 * a = A + 2 -> xzp (fst (xDBLADD O P Q X Z a)) (padd M M).
Proof.
  intros. rewrite xDBLADD_form. cbn [fst]. apply xDBL_ok; auto using one_nz. rewrite H1. ring.
Qed.
End FC.
