(** j-invariant, the six Montgomery models and the canonical one, over a field. *)
From Coq Require Import Field.
From Verif Require Import Base Out Ops Ec Models Fld FieldOps CurveSpec ModelSpec FldCurve.
Set Bullet Behavior "Strict Subproofs".

Section FM.
Variable F : fld.
Variables (unit : F) (sqrt : F -> F) (lt : F -> F -> bool) (enc : F -> list Z) (dec : list Z -> F) (rnd : tape -> out (F * tape)).
Local Notation O := (fld_ops F unit sqrt lt enc dec rnd).
Hypothesis two : (kadd k1 k1 : F) <> k0.
Local Open Scope fld_scope.
Definition kth'' := kth F.
Add Field KF2 : kth''.
Hypothesis sqrt_ok : forall x z : F, x = z * z -> sqrt x * sqrt x = x.
Notation mul_z := (mul_z F). Notation mul_nz := (mul_nz F). Notation sub_eq := (sub_eq F). Notation sub_nz := (sub_nz F).
Notation sqr_z := (sqr_z F). Notation mul_nz_inv := (mul_nz_inv F).
Ltac fsd := repeat match goal with |- _ /\ _ => split end;
  first [assumption | exact two | exact (four_nz F two) | apply (neg_nz F); assumption].

Ltac toF_eq := match goal with |- ?a = ?b => change (@eq (K F) a b) end.

Ltac rng := toF_eq; ring.
Ltac fdv := toF_eq; field.
(** ** j-invariant *)
Lemma j_inv_ok (A C : F) : C <> 0 -> A * A <> 4 * (C * C) -> j_inv O A C = jinv A C.
Proof.
  intros HC HA. apply sub_nz in HA. unfold j_inv, jinv.
  cbn [fld_ops o_add o_sub o_sqr o_mul o_inv]. cbv zeta.
  set (q := A * A - 3 * (C * C)).
  assert (E1 : A * A - (C * C + C * C) - C * C = q) by (unfold q; rng). rewrite E1.
  assert (E2 : q - C * C = A * A - 4 * (C * C)) by (unfold q; rng). rewrite E2.
  set (d := A * A - 4 * (C * C)) in *. clearbody d q. fdv. fsd.
Qed.

Lemma iso_j (A B r u : F) : A * A <> 4 -> B * B <> 4 -> iso_to A B r u -> jinv A 1 = jinv B 1.
Proof.
  intros HA HB (Hu & Hr & Hu2 & HBu). unfold fx in Hr.
  apply sub_nz in HA, HB. unfold jinv.
  assert (A * A - 4 * (1 * 1) <> 0) by (intros E; apply HA; rewrite <- E; rng).
  assert (B * B - 4 * (1 * 1) <> 0) by (intros E; apply HB; rewrite <- E; rng).
  assert (X : (A * A - 3) * (A * A - 3) * (A * A - 3) * (B * B - 4) = (B * B - 3) * (B * B - 3) * (B * B - 3) * (A * A - 4)).
  { assert (U6 : u * u * (u * u) * (u * u) <> 0) by (repeat apply mul_nz; auto).
    apply (mul_cancel F) with (u * u * (u * u) * (u * u)); auto.
    assert (EB : u * u * (B * B) = (3 * r + A) * (3 * r + A)) by (rewrite <- HBu; rng).
    transitivity ((A * A - 3) * (A * A - 3) * (A * A - 3) * (u * u * (B * B) - 4 * (u * u)) * (u * u) * (u * u)); [rng|].
    transitivity ((u * u * (B * B) - 3 * (u * u)) * (u * u * (B * B) - 3 * (u * u)) * (u * u * (B * B) - 3 * (u * u)) * (A * A - 4)); [|rng].
    rewrite EB, Hu2.
    assert (Hr' : r = 0 \/ r * r + A * r + 1 = 0).
    { apply mul_z. rewrite <- Hr. rng. }
    destruct Hr' as [->|Hr']; [rng|].
    assert (EA : r <> 0).
    { intros ->. apply (one_nz F). rewrite <- Hr'. rng. }
    assert (A = - (r * r + 1) / r) as ->.
    { transitivity ((r * r + A * r + 1) / r - (r * r + 1) / r); [fdv; auto|]. rewrite Hr'. fdv. auto. }
    fdv. auto. }
  set (d := B * B - 4 * (1 * 1)) in *. set (e := A * A - 4 * (1 * 1)) in *.
  transitivity (4 * 4 * 4 * 4 * (((A * A - 3) * (A * A - 3) * (A * A - 3) * (B * B - 4)) / (d * e))).
  - replace (B * B - 4) with d by (unfold d; rng). clearbody d e. fdv. fsd.
  - rewrite X. replace (A * A - 4) with e by (unfold e; rng). clearbody d e. fdv. fsd.
Qed.

(** ** Quadratics *)
Lemma solve_quadratic_form (A : F) :
  solve_quadratic O A =
  let s := sqrt (A * A - 4) in
  ((s - A) / 2, (s - A) / 2 - s, if kdec ((s - A) / 2) ((s - A) / 2 - s) then true else false).
Proof.
  unfold solve_quadratic. cbn [fld_ops o_one o_add o_sub o_sqr o_div2 o_eq o_sqrt fp2sqrt].
  replace (A * A - (1 + 1 + (1 + 1))) with (A * A - 4) by rng. reflexivity.
Qed.
Lemma solve_quadratic_ok (A z : F) : A * A - 4 = z * z -> z <> 0 ->
  exists s0 s1 : K F, solve_quadratic O A = (s0, s1, false) /\ s0 + s1 = - A /\ s0 * s1 = 1.
Proof.
  intros Hz Nz. rewrite solve_quadratic_form. cbv zeta.
  pose proof (sqrt_ok _ _ Hz) as Hs. set (s := sqrt (A * A - 4)) in *.
  assert (Ns : s <> 0).
  { intros E. rewrite E in Hs. apply Nz. apply sqr_z. rewrite <- Hz, <- Hs. rng. }
  clearbody s. exists ((s - A) / 2), ((s - A) / 2 - s).
  destruct (kdec ((s - A) / 2) ((s - A) / 2 - s)) as [E|_].
  { exfalso. apply Ns. transitivity ((s - A) / 2 - ((s - A) / 2 - s)); [rng|]. rewrite <- E. rng. }
  split; [reflexivity|]. split.
  - fdv. fsd.
  - transitivity ((A * A - s * s) / 4); [fdv; fsd|]. rewrite Hs. fdv. fsd.
Qed.
Lemma solve_quadratic_same (A : F) : A * A = 4 -> exists s0 s1 : K F, solve_quadratic O A = (s0, s1, true).
Proof.
  intros E. rewrite solve_quadratic_form. cbv zeta. do 2 eexists.
  assert (H0 : sqrt (A * A - 4) = 0).
  { apply sqr_z. rewrite (sqrt_ok _ 0); rewrite E; rng. }
  rewrite H0. destruct (kdec _ _) as [|N]; [reflexivity|]. exfalso. apply N. fdv. fsd.
Qed.

(** ** The six models *)
Definition mdl_ok (A : F) (m : miso O) : Prop := iso_to A (iB m) (ir m) (iu2 m).

Lemma fp2div_field (x z : F) : fp2div O x z = x / z.
Proof. unfold fp2div. cbn. symmetry. apply (Field_theory.Fdiv_def (kth F)). Qed.

Lemma two_models_ok (A x v : F) : A * A <> 4 -> x * x + A * x + 1 = 0 -> v * v = x * x - 1 ->
  exists m0 m1, two_models O A x = Ok [m0; m1] /\ ir m0 = x /\ ir m1 = x /\
    iu2 m0 * iu2 m0 = x * x - 1 /\ iu2 m1 = - iu2 m0 /\ iu2 m0 <> 0 /\
    iB m0 = (3 * x + A) / iu2 m0 /\ iB m1 = (3 * x + A) / iu2 m1.
Proof.
  intros HA Hx Hv. assert (Nx : x * x <> 1) by (now apply (root_ne F A)).
  assert (Nv : v <> 0).
  { intros ->. apply Nx. apply sub_eq. rewrite <- Hv. rng. }
  unfold two_models. cbn [fld_ops o_add o_neg o_sub].
  destruct (solve_quadratic_ok (- (x + x)) (2 * v)) as (s0 & s1 & E & E1 & E2).
  - transitivity (4 * (x * x - 1)); [rng|]. rewrite <- Hv. rng.
  - now apply mul_nz.
  - rewrite E. cbn [iB ir iu2]. rewrite !fp2div_field.
    do 2 eexists. split; [reflexivity|]. cbn [iB ir iu2].
    assert (S1 : s1 = x + x - s0) by (transitivity (s0 + s1 - s0); [rng|]; rewrite E1; rng).
    assert (Q : s0 * (x + x - s0) = 1) by (rewrite <- S1; exact E2).
    assert (U : (s0 - x) * (s0 - x) = x * x - 1).
    { rewrite <- Q. rng. }
    assert (NU : s0 - x <> 0).
    { intros E0. rewrite E0 in U. apply Nx. apply sub_eq. rewrite <- U. rng. }
    split; [reflexivity|]. split; [reflexivity|]. split; [exact U|]. split; [rewrite S1; rng|].
    split; [exact NU|]. split.
    + f_equal. rng.
    + f_equal. rng.
Qed.
Lemma root_iso (A x u : F) : A * A <> 4 -> x * x + A * x + 1 = 0 -> u * u = x * x - 1 -> iso_to A ((3 * x + A) / u) x u.
Proof.
  intros HA Hx Hu.
  assert (Nu : u <> 0).
  { intros ->. apply (root_ne F A HA x); auto. apply sub_eq. rewrite <- Hu. rng. }
  split; [exact Nu|]. split; [|split].
  - unfold fx. transitivity (x * (x * x + A * x + 1)); [rng|]. rewrite Hx. rng.
  - rewrite Hu. transitivity (2 * (x * x + A * x + 1) + x * x - 1); [rewrite Hx; rng|rng].
  - fdv. fsd.
Qed.
Lemma roots (A x x' : F) : x + x' = - A -> x * x' = 1 -> x * x + A * x + 1 = 0 /\ x' * x' + A * x' + 1 = 0.
Proof.
  intros E1 E2. assert (A = - (x + x')) as -> by (rewrite E1; rng). split; rewrite <- E2; rng.
Qed.
Lemma disc (A x x' : F) : x + x' = - A -> x * x' = 1 -> A * A - 4 = (x - x') * (x - x').
Proof. intros E1 E2. assert (A = - (x + x')) as -> by (rewrite E1; rng). transitivity ((x+x')*(x+x') - 4 * (x * x')); [rewrite E2; rng|rng]. Qed.
Lemma sqr_pm (a b : F) : a * a = b * b -> a = b \/ a = - b.
Proof.
  intros E. assert (H : (a - b) * (a + b) = 0) by (transitivity (a * a - b * b); [rng|]; rewrite E; rng).
  apply mul_z in H as [H|H]; [left; now apply sub_eq|right]. apply sub_eq. rewrite <- H. rng.
Qed.
(** The quadratic has exactly these two roots. *)
Lemma roots_only (A x x' r : F) : x + x' = - A -> x * x' = 1 -> r * r + A * r + 1 = 0 -> r = x \/ r = x'.
Proof.
  intros E1 E2 E. assert (H : (r - x) * (r - x') = 0).
  { rewrite <- E. assert (A = - (x + x')) as -> by (rewrite E1; rng). rewrite <- E2. rng. }
  apply mul_z in H as [H|H]; [left|right]; now apply sub_eq.
Qed.

Lemma all_models_ok (E : curve O) : cC E <> 0 -> let A := cA E / cC E in full4 A ->
  exists m, all_models O E = Ok m /\ length m = 6%nat /\
    Forall (mdl_ok A) m /\ (forall B, isomorphic A B -> In B (map iB m)) /\
    (exists rest, m = @mkIso O A 0 1 :: @mkIso O (- A) 0 (- (1)) :: rest /\
       match rest with i :: _ => ir i <> 0 /\ ir i * ir i + A * ir i + 1 = 0 | [] => False end).
Proof.
  intros HC A (HA & x & x' & v & v' & E1 & E2 & Hv & Hv').
  destruct (roots A x x' E1 E2) as [R1 R2].
  unfold all_models. rewrite fp2div_field. fold A.
  pose proof (disc A x x' E1 E2) as Hd.
  assert (Nd : x - x' <> 0).
  { intros E0. apply HA. apply sub_eq. rewrite Hd, E0. rng. }
  destruct (solve_quadratic_ok A (x - x') Hd Nd) as (s0 & s1 & Es & S1 & S2). rewrite Es.
  destruct (roots A s0 s1 S1 S2) as [Q1 Q2].
  assert (V : forall r, r * r + A * r + 1 = 0 -> exists w, w * w = r * r - 1).
  { intros r Hr. destruct (roots_only A x x' r E1 E2 Hr) as [->| ->]; [exists v|exists v']; auto. }
  destruct (V _ Q1) as [w0 W0]. destruct (V _ Q2) as [w1 W1].
  destruct (two_models_ok A s0 w0 HA Q1 W0) as (m0 & m1 & M01 & r0 & r1 & U0 & U1 & N0 & B0 & B1).
  destruct (two_models_ok A s1 w1 HA Q2 W1) as (m2 & m3 & M23 & r2 & r3 & U2 & U3 & N2 & B2 & B3).
  rewrite M01, M23. cbn [bind app fld_ops o_neg o_zero o_one].
  assert (U1' : iu2 m1 * iu2 m1 = s0 * s0 - 1) by (rewrite U1, <- U0; rng).
  assert (U3' : iu2 m3 * iu2 m3 = s1 * s1 - 1) by (rewrite U3, <- U2; rng).
  eexists. split; [reflexivity|]. split; [reflexivity|]. split; [|split].
  - apply Forall_cons; [|apply Forall_cons; [|apply Forall_cons; [|apply Forall_cons; [|apply Forall_cons; [|apply Forall_cons; [|constructor]]]]]];
      unfold mdl_ok; cbn [iB ir iu2].
    + split; [apply (one_nz F)|]. unfold fx. repeat split; rng.
    + split; [apply (neg_nz F), (one_nz F)|]. unfold fx. repeat split; rng.
    + rewrite r0, B0. now apply root_iso.
    + rewrite r1, B1. now apply root_iso.
    + rewrite r2, B2. now apply root_iso.
    + rewrite r3, B3. now apply root_iso.
  - intros B (r & u & Nu & Hr & Hu & HB).
    assert (EB : B = (3 * r + A) / u) by (rewrite <- HB; fdv; fsd).
    assert (Hr' : r = 0 \/ r * r + A * r + 1 = 0).
    { apply mul_z. rewrite <- Hr. unfold fx. rng. }
    cbn [map iB In]. destruct Hr' as [->|Hr'].
    + assert (Pm : u = 1 \/ u = - (1)) by (apply sqr_pm; rewrite Hu; rng).
      destruct Pm as [->| ->].
      * left. rewrite EB. fdv. apply (one_nz F).
      * right. left. rewrite EB. fdv. apply (neg_nz F), (one_nz F).
    + assert (Hu' : u * u = r * r - 1).
      { rewrite Hu. transitivity (2 * (r * r + A * r + 1) + r * r - 1); [rng|]. rewrite Hr'. rng. }
      destruct (roots_only A s0 s1 r S1 S2 Hr') as [->| ->].
      * destruct (sqr_pm u (iu2 m0)) as [Eu|Eu]; [now rewrite U0| |].
        -- right; right; left. now rewrite B0, EB, Eu.
        -- right; right; right; left. now rewrite B1, EB, Eu, U1.
      * destruct (sqr_pm u (iu2 m2)) as [Eu|Eu]; [now rewrite U2| |].
        -- right; right; right; right; left. now rewrite B2, EB, Eu.
        -- right; right; right; right; right; left. now rewrite B3, EB, Eu, U3.
  - exists [m0; m1; m2; m3]. split; [reflexivity|]. cbv iota. rewrite r0. split; [|exact Q1].
    intros ->. apply (one_nz F). rewrite <- S2. rng.
Qed.

(** ** Isomorphism is an equivalence; full4 is invariant *)
Lemma iso_compose (A B C r u r' u' : F) : iso_to A B r u -> iso_to B C r' u' -> iso_to A C (u * r' + r) (u * u').
Proof.
  intros (Nu & H1 & H2 & H3) (Nu' & H1' & H2' & H3').
  unfold fx in *.
  split; [now apply mul_nz|]. split; [|split]; unfold fx.
  - transitivity (u * u * u * (r' * r' * r' + B * (r' * r') + r') +
        (r * r * r + A * (r * r) + r) + u * r' * (3 * (r * r) + 2 * (A * r) + 1 - u * u) + u * u * (r' * r') * (3 * r + A - u * B)); [rng|].
    rewrite H1, H1', H2, H3. rng.
  - transitivity (u * u * (u' * u')); [rng|]. rewrite H2'.
    transitivity (3 * (u * r' * (u * r')) + 2 * u * (u * B) * r' + u * u); [rng|]. rewrite H3, H2. rng.
  - transitivity (u * (u' * C)); [rng|]. rewrite H3'. transitivity (3 * u * r' + u * B); [rng|]. rewrite H3. rng.
Qed.
Lemma iso_inverse (A B r u : F) : iso_to A B r u -> iso_to B A (- r / u) (1 / u).
Proof.
  intros (Nu & H1 & H2 & H3). unfold fx in *.
  assert (EB : B = (3 * r + A) / u) by (rewrite <- H3; fdv; fsd).
  split; [|split; [|split]]; unfold fx.
  - intros E. apply (one_nz F). transitivity (1 / u * u); [fdv; fsd|]. rewrite E. rng.
  - assert (N : 2 * (r * r * r) + A * (r * r) - r * (u * u) = 0).
    { rewrite H2. transitivity (- (r * r * r + A * (r * r) + r)); [rng|]. rewrite H1. rng. }
    rewrite EB. transitivity ((2 * (r * r * r) + A * (r * r) - r * (u * u)) / (u * u * u)); [fdv; fsd|].
    rewrite N. fdv; fsd.
  - assert (N : 3 * (r * r) + u * u - 2 * r * (3 * r + A) = 1) by (rewrite H2; rng).
    rewrite EB.
    transitivity ((3 * (r * r) + u * u - 2 * r * (3 * r + A)) / (u * u)); [|fdv; fsd].
    rewrite N. fdv; fsd.
  - rewrite EB. fdv; fsd.
Qed.
Lemma iso_refl (A : F) : iso_to A A 0 1.
Proof. split; [apply (one_nz F)|]. unfold fx. repeat split; rng. Qed.
Lemma isomorphic_sym (A B : F) : isomorphic A B -> isomorphic B A.
Proof. intros (r & u & H). do 2 eexists. eapply iso_inverse; eauto. Qed.
Lemma isomorphic_trans (A B C : F) : isomorphic A B -> isomorphic B C -> isomorphic A C.
Proof. intros (r & u & H) (r' & u' & H'). do 2 eexists. eapply iso_compose; eauto. Qed.

Lemma iso_full4 (A B r u : F) : full4 A -> iso_to A B r u -> full4 B.
Proof.
  intros (HA & x & x' & v & v' & E1 & E2 & Hv & Hv') (Nu & Hr & Hu & HB).
  destruct (roots A x x' E1 E2) as [R1 R2].
  assert (EB : B = (3 * r + A) / u) by (rewrite <- HB; fdv; fsd).
  assert (Nxx : x - x' <> 0).
  { intros E0. apply HA. apply sub_eq. rewrite (disc A x x' E1 E2), E0. rng. }
  assert (Nx : x <> 0) by (intros ->; apply (one_nz F); rewrite <- E2; rng).
  assert (Nx' : x' <> 0) by (intros ->; apply (one_nz F); rewrite <- E2; rng).
  assert (EA : A = - (x + x')) by (rewrite E1; rng).
  assert (Hr' : r = 0 \/ r * r + A * r + 1 = 0).
  { apply mul_z. rewrite <- Hr. unfold fx. rng. }
  destruct Hr' as [->|Hr'].
  - assert (Pm : u = 1 \/ u = - (1)) by (apply sqr_pm; rewrite Hu; rng).
    assert (B = A \/ B = - A) as [->| ->].
    { destruct Pm as [->| ->]; [left|right]; rewrite EB; fdv; [apply (one_nz F)|apply (neg_nz F), (one_nz F)]. }
    + split; auto. exists x, x', v, v'. auto.
    + split; [intros E0; apply HA; rewrite <- E0; rng|].
      exists (- x), (- x'), v, v'. split; [transitivity (- (x + x')); [rng|rewrite E1; rng]|].
      split; [rewrite <- E2; rng|]. split; [rewrite Hv; rng|rewrite Hv'; rng].
  - assert (G : forall x x' v' : F, x <> 0 -> x' <> 0 -> x - x' <> 0 -> A = - (x + x') -> x * x' = 1 -> v' * v' = x' * x' - 1 -> r = x -> full4 B).
    { clear x x' v v' E1 E2 Hv Hv' R1 R2 Nxx Nx Nx' EA. intros x x' v' Nx Nx' Nxx EA E2 Hv' ->.
      assert (U : u * u = x * x - 1).
      { rewrite Hu. transitivity (2 * (x * x + A * x + 1) + x * x - 1); [rng|]. rewrite Hr'. rng. }
      assert (EB' : B = (2 * x - x') / u) by (rewrite EB, EA; fdv; fsd).
      split.
      - intros E0. apply (sub_nz) in HA.
        assert (Z0 : B * B - 4 = (x' / u) * (x' / u)).
        { rewrite EB'. assert (N : (2 * x - x') * (2 * x - x') - 4 * (u * u) = x' * x').
          { rewrite U. transitivity (x' * x' + 4 * (1 - x * x')); [rng|]. rewrite E2. rng. }
          transitivity (((2 * x - x') * (2 * x - x') - 4 * (u * u)) / (u * u)); [fdv; fsd|]. rewrite N. fdv; fsd. }
        assert (x' / u = 0). { apply sqr_z. rewrite <- Z0, E0. rng. }
        apply Nx'. transitivity (x' / u * u); [fdv; fsd|]. rewrite H. rng.
      - exists (- x / u), ((x' - x) / u), (1 / u), (v' / u). split; [rewrite EB'; fdv; fsd|]. split; [|split].
        + assert (N : x * x - x * x' = u * u) by (rewrite U, E2; rng).
          transitivity ((x * x - x * x') / (u * u)); [fdv; fsd|]. rewrite N. fdv; fsd.
        + assert (N : x * x - u * u = 1) by (rewrite U; rng).
          transitivity ((x * x - u * u) / (u * u)); [rewrite N; fdv; fsd|]. fdv; fsd.
        + assert (N : v' * v' = (x' - x) * (x' - x) - u * u).
          { rewrite Hv', U. transitivity (x' * x' + 1 - 2 * (x * x')); [rewrite E2; rng|rng]. }
          transitivity (v' * v' / (u * u)); [fdv; fsd|]. rewrite N. fdv; fsd. }
    destruct (roots_only A x x' r E1 E2 Hr') as [E0|E0].
    + eapply (G x x' v'); eauto.
    + eapply (G x' x v); eauto.
      * intros E3. apply Nxx. transitivity (- (x' - x)); [rng|]. rewrite E3. rng.
      * rewrite EA. rng.
      * rewrite <- E2. rng.
Qed.
Lemma isomorphic_full4 (A B : F) : full4 A -> isomorphic A B -> full4 B.
Proof. intros HA (r & u & H). eapply iso_full4; eauto. Qed.

(** ** Equal j-invariants: over this field, the curve is one of the six models *)
Lemma j_isomorphic (A B : F) : full4 A -> B * B <> 4 -> jinv A 1 = jinv B 1 -> isomorphic A B.
Proof.
  intros (HA & x & x' & v & v' & E1 & E2 & Hv & Hv') HB J.
  destruct (roots A x x' E1 E2) as [R1 R2].
  pose proof (sub_nz _ _ HA) as HA'. pose proof (sub_nz _ _ HB) as HB'.
  assert (EA : A = - (x + x')) by (rewrite E1; rng).
  assert (Nx : x <> 0) by (intros ->; apply (one_nz F); rewrite <- E2; rng).
  assert (Nv : v <> 0).
  { intros ->. apply (root_ne F A HA x); auto. apply sub_eq. rewrite <- Hv. rng. }
  assert (Nv' : v' <> 0).
  { intros ->. apply (root_ne F A HA x'); auto. apply sub_eq. rewrite <- Hv'. rng. }
  assert (X : (A * A - 3) * (A * A - 3) * (A * A - 3) * (B * B - 4) = (B * B - 3) * (B * B - 3) * (B * B - 3) * (A * A - 4)).
  { unfold jinv in J.
    replace (A * A - 4 * (1 * 1)) with (A * A - 4) in J by rng.
    replace (B * B - 4 * (1 * 1)) with (B * B - 4) in J by rng.
    replace (A * A - 3 * (1 * 1)) with (A * A - 3) in J by rng.
    replace (B * B - 3 * (1 * 1)) with (B * B - 3) in J by rng.
    set (a := A * A - 3) in *. set (b := B * B - 3) in *. set (c := A * A - 4) in *. set (d := B * B - 4) in *.
    clearbody a b c d.
    assert (J1 : 4 * 4 * 4 * 4 * (a * a * a) * d = 4 * 4 * 4 * 4 * (b * b * b) * c).
    { transitivity (4 * 4 * 4 * 4 * (a * a * a) / (1 * 1 * (1 * 1) * c) * (c * d)); [fdv; fsd|]. rewrite J. fdv; fsd. }
    pose proof (four_nz F two) as N4.
    apply (mul_cancel F) with (4 * 4 * 4 * 4); [repeat apply mul_nz; assumption|].
    transitivity (4 * 4 * 4 * 4 * (a * a * a) * d); [rng|]. rewrite J1. rng. }
  assert (Z0 : (B - A) * (B + A) * ((v * B - (3 * x + A)) * (v * B + (3 * x + A))) * ((v' * B - (3 * x' + A)) * (v' * B + (3 * x' + A))) = 0).
  { assert (X' : ((A * A - 3) * (A * A - 3) * (A * A - 3) * (B * B - 4) - (B * B - 3) * (B * B - 3) * (B * B - 3) * (A * A - 4)) * (v * v * (v' * v')) = 0)
      by (rewrite X; rng).
    apply (mul_cancel F) with (A * A - 4); [exact HA'|].
    transitivity (0 : F); [|rng].
    assert (V1 : (v * B - (3 * x + A)) * (v * B + (3 * x + A)) = (x * x - 1) * (B * B) - (3 * x + A) * (3 * x + A)) by (rewrite <- Hv; rng).
    assert (V2 : (v' * B - (3 * x' + A)) * (v' * B + (3 * x' + A)) = (x' * x' - 1) * (B * B) - (3 * x' + A) * (3 * x' + A)) by (rewrite <- Hv'; rng).
    rewrite V1, V2.
    transitivity (- (((A * A - 3) * (A * A - 3) * (A * A - 3) * (B * B - 4) - (B * B - 3) * (B * B - 3) * (B * B - 3) * (A * A - 4)) * (v * v * (v' * v')))); [|rewrite X'; rng].
    rewrite Hv, Hv'. assert (x' = 1 / x) as -> by (rewrite <- E2; fdv; fsd). rewrite EA. fdv; fsd. }
  assert (C : forall y w : F, w <> 0 -> y * y + A * y + 1 = 0 -> w * w = y * y - 1 -> w * B - (3 * y + A) = 0 \/ w * B + (3 * y + A) = 0 -> isomorphic A B).
  { intros y w Nw Hy Hw [E|E].
    - exists y, w. replace B with ((3 * y + A) / w); [now apply root_iso|]. apply sub_eq in E. rewrite <- E. fdv; fsd.
    - exists y, (- w). assert (- w <> 0) by (apply (neg_nz F); auto).
      replace B with ((3 * y + A) / (- w)); [apply root_iso; auto; rewrite <- Hw; rng|].
      transitivity ((w * B + (3 * y + A) - w * B) / (- w)); [f_equal; rng|]. rewrite E. fdv; fsd. }
  apply mul_z in Z0 as [Z0|Z0]; [apply mul_z in Z0 as [Z0|Z0]; [apply mul_z in Z0 as [Z0|Z0]|]|].
  - apply sub_eq in Z0 as ->. exists 0, 1. apply iso_refl.
  - exists 0, (- (1)). assert (B = - A) as -> by (transitivity (B + A - A); [rng|rewrite Z0; rng]).
    split; [apply (neg_nz F), (one_nz F)|]. unfold fx. repeat split; rng.
  - apply mul_z in Z0. eapply (C x v); eauto.
  - apply mul_z in Z0. eapply (C x' v'); eauto.
Qed.

(** ** The canonical model *)
Hypothesis lt_irr : forall x, lt x x = false.
Hypothesis lt_trans : forall x y z, lt x y = true -> lt y z = true -> lt x z = true.
Hypothesis lt_total : forall x y, lt x y = false -> lt y x = false -> x = y.

Lemma fold_pick (l : list (miso O)) (i : miso O) : let r := fold_left (pick_smaller O) l i in
  In r (i :: l) /\ (forall c, In c (i :: l) -> lt (iB c) (iB r) = false).
Proof.
  revert i. induction l as [|c l IH]; intros i; cbn [fold_left].
  - split; [now left|]. intros c [<-|[]]. apply lt_irr.
  - destruct (IH (pick_smaller O i c)) as [H1 H2]. set (r := fold_left _ _ _) in *. cbv zeta.
    assert (Hp : pick_smaller O i c = i /\ lt (iB c) (iB i) = false \/ pick_smaller O i c = c /\ lt (iB c) (iB i) = true).
    { unfold pick_smaller. cbn. destruct (lt (iB c) (iB i)); auto. }
    split.
    + destruct H1 as [H1|H1]; [|now right; right].
      destruct Hp as [[Hp _]|[Hp _]]; rewrite Hp in H1; [now left|now right; left].
    + assert (G : lt (iB (pick_smaller O i c)) (iB r) = false) by (apply H2; now left).
      intros d [<-|[<-|Hd]]; [| |apply H2; now right].
      * destruct Hp as [[Hp E]|[Hp E]]; rewrite Hp in G; auto.
        destruct (lt (iB i) (iB r)) eqn:E'; auto. rewrite <- G. symmetry. eapply lt_trans; eauto.
      * destruct Hp as [[Hp E]|[Hp E]]; rewrite Hp in G; auto.
        destruct (lt (iB c) (iB r)) eqn:E'; auto. destruct (lt (iB i) (iB c)) eqn:E2.
        -- rewrite <- G. symmetry. eapply lt_trans; eauto.
        -- assert (EE : iB c = iB i) by (now apply lt_total). rewrite <- EE, E' in G. exact G.
Qed.

Definition least_model (A B : F) : Prop := isomorphic A B /\ forall B', isomorphic A B' -> lt B' B = false.
Lemma least_unique (A B B' : F) : least_model A B -> least_model A B' -> B = B'.
Proof. intros [H1 H2] [H3 H4]. apply lt_total; auto. Qed.
Lemma least_iso (A A' B : F) : isomorphic A A' -> least_model A B -> least_model A' B.
Proof.
  intros H [H1 H2]. split.
  - apply isomorphic_trans with A; auto. now apply isomorphic_sym.
  - intros B' H'. apply H2. now apply isomorphic_trans with A'.
Qed.

Theorem canonical_model_ok (E : curve O) : cC E <> 0 -> let A := cA E / cC E in full4 A ->
  exists m, canonical_model O E = Ok m /\ iso_to A (iB m) (ir m) (iu2 m) /\ least_model A (iB m).
Proof.
  intros HC A HA. destruct (all_models_ok E HC HA) as (l & El & Hl & H1 & H2 & _).
  unfold canonical_model. rewrite El. cbn [bind]. destruct l as [|i l]; [discriminate|].
  destruct (fold_pick l i) as [G1 G2]. cbv zeta in *. set (r := fold_left _ _ _) in *.
  rewrite Forall_forall in H1. pose proof (H1 _ G1) as Hr.
  exists r. split; [reflexivity|]. split; [exact Hr|]. split; [do 2 eexists; exact Hr|].
  intros B' HB. destruct (proj1 (in_map_iff _ _ _) (H2 _ HB)) as (c & <- & Hc). now apply G2.
Qed.

(** Isomorphic curves, equivalently curves with the same j-invariant, have the same canonical model. *)
Theorem canonical_same (E E' : curve O) m m' : cC E <> 0 -> cC E' <> 0 -> full4 (cA E / cC E) ->
  isomorphic (cA E / cC E) (cA E' / cC E') -> canonical_model O E = Ok m -> canonical_model O E' = Ok m' -> iB m = iB m'.
Proof.
  intros HC HC' H4 HI Hm Hm'.
  destruct (canonical_model_ok E HC H4) as (n & Hn & _ & L). rewrite Hm in Hn. injection Hn as <-.
  destruct (canonical_model_ok E' HC') as (n & Hn & _ & L'). { now apply isomorphic_full4 with (cA E / cC E). }
  rewrite Hm' in Hn. injection Hn as <-.
  apply least_unique with (cA E' / cC E'); auto. now apply least_iso with (cA E / cC E).
Qed.

(** eval_iso sends the points of the curve to points of the model. *)
Lemma iso_eval (A B r u X Z : F) : iso_to A B r u -> Z <> 0 ->
  u * Z <> 0 /\ (X - r * Z) / (u * Z) = (X / Z - r) / u /\
  fx A (X / Z) = u * u * u * fx B ((X - r * Z) / (u * Z)).
Proof.
  intros (Nu & H1 & H2 & H3) HP.
  assert (NZ : u * Z <> 0) by (now apply mul_nz).
  split; [exact NZ|].
  assert (E1 : (X - r * Z) / (u * Z) = (X / Z - r) / u) by (fdv; fsd).
  split; [exact E1|]. rewrite E1. set (x := X / Z). clearbody x. clear E1.
  unfold fx in *.
  assert (EB : B = (3 * r + A) / u) by (rewrite <- H3; fdv; fsd).
  rewrite EB.
  transitivity ((x - r) * (x - r) * (x - r) + (3 * r + A) * ((x - r) * (x - r)) + u * u * (x - r)); [|fdv; fsd].
  rewrite H2. transitivity (x * x * x + A * (x * x) + x - (r * r * r + A * (r * r) + r)); [rewrite H1; rng|rng].
Qed.
Theorem eval_iso_ok (A : F) (m : miso O) (P : pt O) : iso_to A (iB m) (ir m) (iu2 m) -> pZ P <> 0 ->
  let Q := eval_iso O m P in
  pZ Q <> 0 /\ pX Q / pZ Q = (pX P / pZ P - ir m) / iu2 m /\
  fx A (pX P / pZ P) = iu2 m * iu2 m * iu2 m * fx (iB m) (pX Q / pZ Q).
Proof. intros H HP. exact (iso_eval A _ _ _ (pX P) (pZ P) H HP). Qed.
Lemma eval_iso_inf (m : miso O) (P : pt O) : pZ P = 0 -> pZ (eval_iso O m P) = 0.
Proof. intros E. unfold eval_iso. cbn. rewrite E. rng. Qed.

End FM.
