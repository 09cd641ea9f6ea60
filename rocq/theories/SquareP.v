(** Isogenies of degree 2 or 4 and of degree 3 commute: the squares of SIDH and of the proof of knowledge, on x-coordinates. *)
From Coq Require Import Field.
From Verif Require Import Base Out Params Ops Ec Models Fld FieldOps CurveSpec IsogSpec ModelSpec XSpec WalkSpec FldCurve GroupP MultP IsoP FldIsog FldModels
  XLine XIso Strategy XChain CheckP XIsog WalkP.
Set Bullet Behavior "Strict Subproofs".

Section SQ.
Variable F : fld.
Hypothesis two : (kadd k1 k1 : F) <> k0.
Local Open Scope fld_scope.
Definition kth11 := kth F.
Add Field KF11 : kth11.
Ltac fsd := repeat match goal with |- _ /\ _ => split end;
  first [assumption | exact two | exact (four_nz F two) | apply (neg_nz F); assumption].
Ltac toF_eq := match goal with |- ?a = ?b => change (@eq (K F) a b) end.
Ltac rng := toF_eq; ring.
Implicit Types (A B k m x t u X Z : F) (q r s : xl F).
Local Notation dm T := (T F (k0 : F) (fun x : F => x) (fun _ _ : F => false) (fun _ : F => @nil Z) (fun _ : list Z => (k0 : F)) (fun _ : tape => @NoTape (F * tape))).

(** ** Projective forms *)
Lemma phi2_proj m X Z q : m <> 0 -> m * m <> 1 -> rep X Z q -> rep (X * (m * X - Z)) (Z * (X - m * Z)) (phi2x m q).
Proof.
  intros Nm N1. destruct q as [|x]; cbn [rep phi2x].
  - intros [NX ->]. split; [|ring]. replace (X * (m * X - 0)) with (m * (X * X)) by ring. repeat apply (mul_nz F); auto.
  - intros [NZ ->]. destruct (kdec x m) as [->|N]; cbn [rep].
    + split; [|ring]. replace (m * Z * (m * (m * Z) - Z)) with (m * (Z * Z) * (m * m - 1)) by ring.
      repeat apply (mul_nz F); auto. apply (sub_nz F); auto.
    + assert (x - m <> 0) by (apply (sub_nz F); auto). split.
      * replace (Z * (x * Z - m * Z)) with (Z * Z * (x - m)) by ring. repeat apply (mul_nz F); auto.
      * toF_eq. field. auto.
Qed.
Lemma phi3_proj t X Z q : t <> 0 -> t * t <> 1 -> rep X Z q ->
  rep (X * ((t * X - Z) * (t * X - Z))) (Z * ((X - t * Z) * (X - t * Z))) (phi3x t q).
Proof.
  intros Nm N1. destruct q as [|x]; cbn [rep phi3x].
  - intros [NX ->]. split; [|ring]. replace (X * ((t * X - 0) * (t * X - 0))) with (X * ((t * X) * (t * X))) by ring. repeat apply (mul_nz F); auto.
  - intros [NZ ->]. destruct (kdec x t) as [->|N]; cbn [rep].
    + split; [|ring]. replace (t * Z * ((t * (t * Z) - Z) * (t * (t * Z) - Z))) with (t * Z * ((Z * (t * t - 1)) * (Z * (t * t - 1)))) by ring.
      repeat apply (mul_nz F); auto; apply (sub_nz F); auto.
    + assert (x - t <> 0) by (apply (sub_nz F); auto). split.
      * replace (Z * ((x * Z - t * Z) * (x * Z - t * Z))) with (Z * (Z * Z) * ((x - t) * (x - t))) by ring. repeat apply (mul_nz F); auto.
      * toF_eq. field. auto.
Qed.

(** ** Kernels *)
Lemma ker2_rel A m : A * A <> 4 -> ker2 A m -> m <> 0 /\ m * m + A * m + 1 = 0 /\ m * m <> 1.
Proof.
  intros HA [Nm H]. apply two_tors in H. unfold fx in H. assert (E : m * m + A * m + 1 = 0).
  { apply (mul_cancel F) with m; [auto|]. transitivity (m * m * m + A * (m * m) + m); [ring|rewrite H; ring]. }
  split; [auto|]. split; [auto|]. intros E1. apply HA.
  assert (E2 : A * m = - (2)). { transitivity (m * m + A * m + 1 - (m * m) - 1); [ring|]. rewrite E, E1. ring. }
  transitivity (A * A * (m * m)); [rewrite E1; ring|]. transitivity (A * m * (A * m)); [ring|]. rewrite E2. ring.
Qed.
Lemma ker3_div A t : ker3 A t <-> div3 A t = 0.
Proof. unfold ker3. cbn [tplx]. destruct (kdec (div3 A t) 0); split; auto; [discriminate|contradiction]. Qed.
Lemma ker3_rel A t : A * A <> 4 -> ker3 A t -> t <> 0 /\ div3 A t = 0 /\ t * t <> 1.
Proof.
  intros HA H. apply ker3_div in H. assert (Nt : t <> 0).
  { intros ->. unfold div3 in H. apply (one_nz F). transitivity (- (3 * (0 * 0 * (0 * 0)) + 4 * (A * (0 * 0 * 0)) + 2 * (3 * (0 * 0)) - 1) : F); [ring|]. rewrite H. ring. }
  split; [auto|]. split; [auto|]. intros E1. apply HA. unfold div3 in H.
  assert (E2 : A * t = - (2)).
  { apply (mul_cancel F) with 4; [apply (four_nz F two)|].
    transitivity (3 * (t * t * (t * t)) + 4 * (A * (t * t * t)) + 2 * (3 * (t * t)) - 1 - (4 * (A * t)) * (t * t - 1) - 3 * (t * t) * (t * t) - 2 * (3 * (t * t)) + 1); [ring|].
    rewrite H, E1. ring. }
  transitivity (A * A * (t * t)); [rewrite E1; ring|]. transitivity (A * t * (A * t)); [ring|]. rewrite E2. ring.
Qed.

(** ** Degrees 2 and 3 *)
Section S23.
Variables A m t : F.
Hypothesis HA : A * A <> 4.
Hypothesis Hm : ker2 A m.
Hypothesis Ht : ker3 A t.
Let a := t * m - 1.
Let b := m - t.
Lemma rel23 : 3 * (t * t * (t * t)) * m - 4 * ((m * m + 1) * (t * t * t)) + 2 * (3 * (t * t)) * m - m = 0.
Proof.
  destruct (ker2_rel A m HA Hm) as (Nm & Em & _). destruct (ker3_rel A t HA Ht) as (_ & Et & _). unfold div3 in Et.
  transitivity ((3 * (t * t * (t * t)) + 4 * (A * (t * t * t)) + 2 * (3 * (t * t)) - 1) * m - 4 * (t * t * t) * (m * m + A * m + 1)); [ring|].
  rewrite Et, Em. ring.
Qed.
Lemma b_nz : b <> 0.
Proof.
  unfold b. intros E. apply (sub_eq F) in E. pose proof rel23 as R. rewrite <- E in R. destruct (ker2_rel A m HA Hm) as (Nm & _ & N1).
  apply N1. apply (sub_eq F). apply (sqr_z F). apply (mul_cancel F) with m; [auto|].
  transitivity (- (3 * (m * m * (m * m)) * m - 4 * ((m * m + 1) * (m * m * m)) + 2 * (3 * (m * m)) * m - m)); [ring|]. rewrite R. ring.
Qed.
Lemma a_nz : a <> 0.
Proof.
  unfold a. intros E. apply (sub_eq F) in E. pose proof rel23 as R. destruct (ker2_rel A m HA Hm) as (Nm & _ & N1).
  apply N1. apply (sub_eq F). apply (sqr_z F).
  transitivity (- (m * m * m) * (3 * (t * t * (t * t)) * m - 4 * ((m * m + 1) * (t * t * t)) + 2 * (3 * (t * t)) * m - m)
    + (t * m - 1) * (3 * (t * t * t * (m * m * m)) - 4 * (t * t * (m * m * m * m)) - t * t * (m * m) + 2 * (t * (m * m * m)) - t * m + 2 * (m * m) - 1)); [ring|].
  rewrite R, E. ring.
Qed.
Definition t23 : F := - (t * a / b).
Definition m23 : F := m * (a * a) / (b * b).
Lemma phi2_t : phi2x m (XF t) = XF t23.
Proof.
  cbn. pose proof b_nz as Nb. unfold b in Nb. destruct (kdec t m) as [E|N]; [exfalso; apply Nb; rewrite E; ring|]. f_equal. unfold t23, a, b. toF_eq. field.
  split; [exact Nb|]. apply (sub_nz F); auto.
Qed.
Lemma phi3_m : phi3x t (XF m) = XF m23.
Proof.
  cbn. pose proof b_nz as Nb. unfold b in Nb. destruct (kdec m t) as [E|N]; [exfalso; apply Nb; rewrite E; ring|]. f_equal.
Qed.
Lemma ker3_t : ker3 (A2 m) t23.
Proof. unfold ker3. rewrite <- phi2_t. rewrite <- (dm phi2_tplx two A HA m Hm). change (tplx A (XF t) = XInf) in Ht. now rewrite Ht. Qed.
Lemma ker2_m : ker2 (A3 A t) m23.
Proof.
  split.
  - unfold m23. pose proof a_nz. pose proof b_nz. destruct Hm as [Nm _]. intros E.
    assert (X : m * (a * a) = 0). { transitivity (m * (a * a) / (b * b) * (b * b)); [field; auto|]. rewrite E. ring. }
    revert X. repeat apply (mul_nz F); auto.
  - rewrite <- phi3_m. rewrite <- (dm phi3_dblx two A HA t Ht). destruct Hm as [_ ->]. reflexivity.
Qed.
Lemma cod23 : A2 m23 = A3 (A2 m) t23.
Proof.
  pose proof b_nz as Nb. unfold A2, A3, m23, t23. pose proof rel23 as R. apply (sub_eq F).
  transitivity ((2 * (t * t * t * (m * m)) + 2 * (t * t * (m * m * m)) - 4 * (t * t * m) - 2 * (t * (m * m)) - 2 * (m * m * m) + 4 * m) *
    (3 * (t * t * (t * t)) * m - 4 * ((m * m + 1) * (t * t * t)) + 2 * (3 * (t * t)) * m - m) / (b * b * (b * b))).
  - unfold a, b in *. toF_eq. field. exact Nb.
  - rewrite R. field. exact Nb.
Qed.
Lemma sq23 q : phi2x m23 (phi3x t q) = phi3x t23 (phi2x m q).
Proof.
  destruct (rep_ex F q) as (X & Z & HX). pose proof a_nz as Na. pose proof b_nz as Nb.
  destruct (ker2_rel A m HA Hm) as (Nm & Em & N1). destruct (ker3_rel A t HA Ht) as (Nt & Et & Nt1).
  destruct (ker2_rel _ _ (dm cod3 two A HA t Ht) ker2_m) as (Nm' & _ & N1').
  destruct (ker3_rel _ _ (cod2 F two A HA m Hm) ker3_t) as (Nt' & _ & Nt1').
  pose proof (phi2_proj m23 _ _ _ Nm' N1' (phi3_proj t X Z q Nt Nt1 HX)) as R1.
  pose proof (phi3_proj t23 _ _ _ Nt' Nt1' (phi2_proj m X Z q Nm N1 HX)) as R2.
  pose proof rel23 as R. set (REL := 3 * (t * t * (t * t)) * m - 4 * ((m * m + 1) * (t * t * t)) + 2 * (3 * (t * t)) * m - m) in *.
  assert (I1 : forall X Z, m * (a * a) * (X * ((t * X - Z) * (t * X - Z))) - b * b * (Z * ((X - t * Z) * (X - t * Z)))
             = t * t * ((m * X - Z) * ((a * X + b * Z) * (a * X + b * Z)))).
  { intros U V. transitivity (t * t * ((m * U - V) * ((a * U + b * V) * (a * U + b * V))) + REL * (m * (U * U) * V - U * (V * V))).
    - unfold a, b, REL. ring.
    - rewrite R. ring. }
  assert (I2 : forall X Z, t * a * (X * (m * X - Z)) + b * (Z * (X - m * Z)) = m * ((t * X - Z) * (a * X + b * Z))).
  { intros U V. unfold a, b. ring. }
  assert (Q1 : forall U V, m23 * (U * ((t * U - V) * (t * U - V))) - V * ((U - t * V) * (U - t * V)) = t * t * ((m * U - V) * ((a * U + b * V) * (a * U + b * V))) / (b * b)).
  { intros U V. rewrite <- I1. unfold m23. toF_eq. field. exact Nb. }
  assert (Q2 : forall U V, t23 * (U * (m * U - V)) - V * (U - m * V) = - (m * ((t * U - V) * (a * U + b * V)) / b)).
  { intros U V. rewrite <- I2. unfold t23. toF_eq. field. exact Nb. }
  assert (Q3 : X * ((t * X - Z) * (t * X - Z)) - m23 * (Z * ((X - t * Z) * (X - t * Z))) = - (t * t * ((m * Z - X) * ((a * Z + b * X) * (a * Z + b * X))) / (b * b))).
  { rewrite <- (Q1 Z X). ring. }
  assert (Q4 : X * (m * X - Z) - t23 * (Z * (X - m * Z)) = - (m * ((t * Z - X) * (a * Z + b * X)) / b)).
  { rewrite <- (Q2 Z X). ring. }
  refine (rep_prop F (m * m) (t * t) _ _ _ _ _ _ _ _ _ _ R1 R2).
  - now apply (mul_nz F).
  - now apply (mul_nz F).
  - rewrite Q1, Q2. toF_eq. field. exact Nb.
  - rewrite Q3, Q4. toF_eq. field. exact Nb.
Qed.
End S23.

(** ** Degree 4 as two steps of degree 2 and a change of sign *)
Definition negx q : xl F := match q with XInf => XInf | XF x => XF (- x) end.
Lemma phi3_negx t q : phi3x (- t) (negx q) = negx (phi3x t q).
Proof.
  destruct q as [|x]; [reflexivity|]. cbn [negx phi3x]. destruct (kdec x t) as [->|N].
  - destruct (kdec (- t) (- t)); [reflexivity|contradiction].
  - destruct (kdec (- x) (- t)) as [E|N']; [exfalso; apply N; transitivity (- - x); [ring|rewrite E; ring]|]. cbn [negx]. f_equal. toF_eq.
    assert (x - t <> 0) by (apply (sub_nz F); auto). assert (- x - - t <> 0) by (apply (sub_nz F); auto). field. auto.
Qed.
Lemma ker3_negx A t : ker3 A t -> ker3 (- A) (- t).
Proof. rewrite !ker3_div. intros E. rewrite <- E. unfold div3. rng. Qed.
Lemma A3_neg A t : A3 (- A) (- t) = - A3 A t. Proof. unfold A3. rng. Qed.
Lemma A4_A2 k : A4 k = - A2 (k * k). Proof. unfold A4, A2. rng. Qed.
Section D4.
Variables A k m : F.
Hypothesis HA : A * A <> 4.
Hypothesis Nm : m <> 0.
Hypothesis E1 : dblx A (XF k) = XF m.
Hypothesis E2 : dblx A (XF m) = XInf.
Lemma m_k : m = (k * k + 1) / (2 * k).
Proof. pose proof (ker4_nz F two A HA k m Nm E1 E2). pose proof (ker4_m F two A HA k m Nm E1 E2) as E. rewrite <- E. field. split; auto. Qed.
Lemma phi2_k : phi2x m (XF k) = XF (k * k).
Proof.
  pose proof (ker4_nz F two A HA k m Nm E1 E2). pose proof (ker4_ne F two A HA k m Nm E1 E2).
  cbn. destruct (kdec k m) as [E|N]; [exfalso; pose proof E1 as Y; rewrite E, E2 in Y; discriminate|].
  f_equal. assert (ND : k - m <> 0) by (apply (sub_nz F); auto). pose proof (ker4_m F two A HA k m Nm E1 E2) as Em.
  assert (Y : k * (m * k - 1) = k * k * (k - m)).
  { apply (sub_eq F). transitivity (k * (2 * (m * k) - (k * k + 1))); [ring|]. rewrite Em. ring. }
  rewrite Y. toF_eq. field. auto.
Qed.
Lemma ker2_m4 : ker2 A m. Proof. split; auto. Qed.
Lemma ker2_kk : ker2 (A2 m) (k * k).
Proof.
  split; [pose proof (ker4_nz F two A HA k m Nm E1 E2); now apply (mul_nz F)|].
  rewrite <- phi2_k. rewrite <- (dm phi2_dblx two A HA m ker2_m4). rewrite E1. cbn. destruct (kdec m m); [reflexivity|contradiction].
Qed.
Lemma phi4_split q : phi4x k q = negx (phi2x (k * k) (phi2x m q)).
Proof.
  pose proof (ker4_nz F two A HA k m Nm E1 E2) as Nk. pose proof (ker4_m F two A HA k m Nm E1 E2) as Em.
  destruct q as [|x]; [reflexivity|]. cbn [phi4x phi2x].
  assert (Fac : x * (m * x - 1) - k * k * (x - m) = m * ((x - k) * (x - k))).
  { transitivity (m * (x * x) - x * (k * k + 1) + k * k * m); [ring|]. rewrite <- Em. ring. }
  destruct (kdec x k) as [E|N].
  - subst x. destruct (kdec k m) as [E|Nkm]; [reflexivity|]. cbn [phi2x].
    assert (k - m <> 0) by (apply (sub_nz F); auto).
    destruct (kdec (k * (m * k - 1) / (k - m)) (k * k)) as [_|NN]; [reflexivity|]. exfalso. apply NN.
    transitivity ((k * (m * k - 1) - k * k * (k - m) + k * k * (k - m)) / (k - m)); [field; auto|]. rewrite Fac. field. auto.
  - destruct (kdec (2 * (k * x)) (k * k + 1)) as [E|N2]; destruct (kdec x m) as [Exm|Nxm].
    + reflexivity.
    + exfalso. apply Nxm. rewrite <- Em in E. apply (mul_cancel F) with (2 * k); [now apply (mul_nz F)|].
      transitivity (2 * (k * x)); [ring|]. rewrite E. ring.
    + exfalso. apply N2. rewrite Exm, <- Em. ring.
    + cbn [phi2x]. assert (Nd : x - m <> 0) by (apply (sub_nz F); auto). assert (Nd2 : x - k <> 0) by (apply (sub_nz F); auto).
      destruct (kdec (x * (m * x - 1) / (x - m)) (k * k)) as [E|N3].
      { exfalso. assert (Y : m * ((x - k) * (x - k)) = 0).
        { rewrite <- Fac. transitivity ((x * (m * x - 1) / (x - m) - k * k) * (x - m)); [field; auto|]. rewrite E. ring. }
        revert Y. repeat apply (mul_nz F); auto. }
      cbn [negx]. f_equal.
      assert (D2 : 2 * (k * x) - k * k - 1 = 2 * k * (x - m)). { transitivity (2 * (k * x) - (k * k + 1)); [ring|]. rewrite <- Em. ring. }
      assert (D3 : (k * k + 1) * x - 2 * k = 2 * k * (m * x - 1)). { rewrite <- Em. ring. }
      rewrite D2, D3.
      transitivity (- (x * (m * x - 1) * (k * k * (x * (m * x - 1)) - (x - m)) / ((x - m) * (m * ((x - k) * (x - k)))))).
      * assert (Fac2 : k * k * (x * (m * x - 1)) - (x - m) = m * ((k * x - 1) * (k * x - 1))).
        { transitivity (k * k * (m * (x * x)) - x * (k * k + 1) + m); [ring|]. rewrite <- Em. ring. }
        rewrite Fac2. toF_eq. field. repeat split; auto.
      * assert (NN : x * (m * x - 1) - k * k * (x - m) <> 0) by (rewrite Fac; repeat apply (mul_nz F); auto).
        rewrite <- Fac. toF_eq. field. repeat split; auto.
Qed.
End D4.

(** ** Degrees 4 and 3 *)
Lemma sq34 A k t : A * A <> 4 -> ker4 A k -> ker3 A t -> exists t' k', phi4x k (XF t) = XF t' /\ phi3x t (XF k) = XF k' /\
  ker3 (A4 k) t' /\ ker4 (A3 A t) k' /\ A4 k' = A3 (A4 k) t' /\ forall q, phi4x k' (phi3x t q) = phi3x t' (phi4x k q).
Proof.
  intros HA (m & Nm & E1 & E2) Ht.
  pose proof (ker2_m4 A m Nm E2) as Hm. pose proof (ker2_kk A k m HA Nm E1 E2) as Hkk.
  pose proof (cod2 F two A HA m Hm) as HA1. pose proof (cod2 F two _ HA1 _ Hkk) as HA2.
  set (t1 := t23 m t). pose proof (ker3_t A m t HA Hm Ht) as Ht1. fold t1 in Ht1.
  set (t2 := t23 (k * k) t1). pose proof (ker3_t _ _ t1 HA1 Hkk Ht1) as Ht2. fold t2 in Ht2.
  pose proof (dm cod3 two A HA t Ht) as HA3. pose proof (ker2_m A m t HA Hm Ht) as Hm'. set (m' := m23 m t) in *.
  assert (E3 : dblx (A3 A t) (phi3x t (XF k)) = XF m').
  { rewrite <- (dm phi3_dblx two A HA t Ht), E1. apply (phi3_m A m t HA Hm Ht). }
  destruct (phi3x t (XF k)) as [|k'] eqn:Ek'; [discriminate|]. destruct Hm' as [Nm' E4].
  assert (Ekk : k' * k' = m23 (k * k) t1).
  { assert (X : XF (k' * k') = XF (m23 (k * k) t1)); [|injection X; auto].
    rewrite <- (phi2_k _ k' m' HA3 Nm' E3 E4). rewrite <- Ek'. unfold m'. rewrite (sq23 A m t HA Hm Ht).
    rewrite (phi2_k A k m HA Nm E1 E2). apply (phi3_m _ _ t1 HA1 Hkk Ht1). }
  exists (- t2), k'. split; [|split; [reflexivity|split; [|split; [|split]]]].
  - rewrite (phi4_split A k m HA Nm E1 E2). rewrite (phi2_t A m t HA Hm Ht). fold t1. rewrite (phi2_t _ _ t1 HA1 Hkk Ht1). reflexivity.
  - rewrite A4_A2. now apply ker3_negx.
  - exists m'. auto.
  - rewrite !A4_A2, A3_neg. f_equal. rewrite Ekk. apply (cod23 _ _ t1 HA1 Hkk Ht1).
  - intros q. rewrite (phi4_split _ k' m' HA3 Nm' E3 E4), (phi4_split A k m HA Nm E1 E2), phi3_negx. f_equal.
    unfold m'. rewrite (sq23 A m t HA Hm Ht). fold t1. rewrite Ekk. apply (sq23 _ _ t1 HA1 Hkk Ht1).
Qed.
End SQ.
