(** The chord-and-tangent law of CurveSpec is an abelian group.

    Three points of a line Y = s X + c: f(X) - B (s X + c)^2 = (X - x1)(X - x2)(X - x3) ([tri], coefficient
    by coefficient).  Associativity: the function (X - x1)(X - x2) - k (Y - l X - c), which vanishes at the
    three summands and at minus the sum, is the same for both bracketings. *)
From Coq Require Import Field.
From Verif Require Import Base Fld CurveSpec FldCurve.
Set Bullet Behavior "Strict Subproofs".

Section G.
Variable F : fld.
Hypothesis two : (kadd k1 k1 : F) <> k0.
Local Open Scope fld_scope.
Definition kthg := kth F.
Add Field KFg : kthg.
Variables A B : F.
Hypothesis HA : A * A <> 4.
Hypothesis HB : B <> 0.
Local Notation fx := (fx A). Local Notation on := (on A B). Local Notation padd := (padd A B).
Notation mul_z := (mul_z F). Notation mul_nz := (mul_nz F). Notation sub_eq := (sub_eq F). Notation sub_nz := (sub_nz F).
Ltac fsd := repeat match goal with |- _ /\ _ => split end;
  first [assumption | exact two | exact (four_nz F two) | apply (neg_nz F); assumption].

Definition dfx (x : F) : F := 3 * (x * x) + 2 * (A * x) + 1.
Definition tri (s c x1 x2 x3 : F) : Prop :=
  A - B * (s * s) = - (x1 + x2 + x3) /\ 1 - 2 * (B * (s * c)) = x1 * x2 + x1 * x3 + x2 * x3 /\ B * (c * c) = x1 * x2 * x3.

Lemma tri_sym s c x1 x2 x3 : tri s c x1 x2 x3 -> tri s c x2 x1 x3 /\ tri s c x1 x3 x2.
Proof. intros (H1 & H2 & H3). unfold tri. rewrite H1, H2, H3. repeat split; ring. Qed.
Lemma tri_f s c x1 x2 x3 X : tri s c x1 x2 x3 -> fx X = B * ((s * X + c) * (s * X + c)) + (X - x1) * (X - x2) * (X - x3).
Proof.
  intros (H1 & H2 & H3). unfold CurveSpec.fx.
  transitivity (X * X * X + (A - B * (s * s)) * (X * X) + (1 - 2 * (B * (s * c))) * X - B * (c * c) + B * ((s * X + c) * (s * X + c))); [ring|].
  rewrite H1, H2, H3. ring.
Qed.
Lemma tri_df s c x1 x2 x3 : tri s c x1 x2 x3 -> dfx x1 = 2 * (B * (s * (s * x1 + c))) + (x1 - x2) * (x1 - x3).
Proof.
  intros (H1 & H2 & H3). unfold dfx.
  transitivity (3 * (x1 * x1) + 2 * ((A - B * (s * s)) * x1) + (1 - 2 * (B * (s * c))) + 2 * (B * (s * (s * x1 + c)))); [ring|].
  rewrite H1, H2. ring.
Qed.
Lemma nonsing x : fx x = 0 -> dfx x = 0 -> False.
Proof.
  intros H1 H2. destruct (fx0 F A x H1) as [->|R].
  - apply (one_nz F). rewrite <- H2. unfold dfx. ring.
  - apply (root_ne F A HA x R). apply sub_eq. transitivity (dfx x - 2 * (x * x + A * x + 1)); [unfold dfx; ring|].
    rewrite H2, R. ring.
Qed.

Lemma line_on s c x1 x2 x3 : tri s c x1 x2 x3 -> on (Aff x1 (s * x1 + c)).
Proof. intros H. cbn. rewrite (tri_f _ _ _ _ _ x1 H). ring. Qed.
(** Two points of a line: the sum is the reflected third point. *)
Lemma line_add s c x1 x2 x3 : tri s c x1 x2 x3 ->
  padd (Aff x1 (s * x1 + c)) (Aff x2 (s * x2 + c)) = Aff x3 (- (s * x3 + c)).
Proof.
  intros H. pose proof H as (H1 & _ & _). cbn [CurveSpec.padd]. destruct (kdec x1 x2) as [<-|N].
  - destruct (kdec _ 0) as [Y0|Y0].
    + exfalso. replace (s * x1 + c + (s * x1 + c)) with (2 * (s * x1 + c)) in Y0 by ring.
      apply mul_z in Y0 as [Y0|Y0]; [contradiction|]. apply (nonsing x1).
      * rewrite (tri_f _ _ _ _ _ x1 H), Y0. ring.
      * rewrite (tri_df _ _ _ _ _ H), Y0. ring.
    + assert (Ny : s * x1 + c <> 0) by (intros E; apply Y0; rewrite E; ring).
      assert (Es : (3 * (x1 * x1) + 2 * (A * x1) + 1) / (2 * (B * (s * x1 + c))) = s).
      { fold (dfx x1). rewrite (tri_df _ _ _ _ _ H). field. fsd. }
      rewrite Es. unfold chord.
      assert (E3 : B * (s * s) - A - x1 - x1 = x3).
      { transitivity (- (A - B * (s * s)) - x1 - x1); [ring|]. rewrite H1. ring. }
      rewrite E3. apply f_equal2; [reflexivity|]. ring.
  - assert (N' : x2 - x1 <> 0) by (apply sub_nz; auto).
    assert (Es : (s * x2 + c - (s * x1 + c)) / (x2 - x1) = s) by (field; fsd).
    rewrite Es. unfold chord.
    assert (E3 : B * (s * s) - A - x1 - x2 = x3).
    { transitivity (- (A - B * (s * s)) - x1 - x2); [ring|]. rewrite H1. ring. }
    rewrite E3. apply f_equal2; [reflexivity|]. ring.
Qed.
Lemma y_cases x y y' : on (Aff x y) -> on (Aff x y') -> y + y' <> 0 -> y = y'.
Proof.
  intros H H' N. destruct (on_y_eq F A B HB x y y' H H'); auto. contradiction.
Qed.
Lemma add_line x1 y1 x2 y2 : on (Aff x1 y1) -> on (Aff x2 y2) -> ~ (x1 = x2 /\ y1 + y2 = 0) ->
  exists s c x3, y1 = s * x1 + c /\ y2 = s * x2 + c /\ tri s c x1 x2 x3.
Proof.
  intros H1 H2 N. destruct (kdec x1 x2) as [<-|Nx].
  - assert (N2 : y1 + y2 <> 0) by tauto. assert (y1 = y2) as <- by (eapply y_cases; eauto).
    assert (Ny : y1 <> 0) by (intros E; apply N2; rewrite E; ring).
    set (s := dfx x1 / (2 * (B * y1))).
    assert (Es : 2 * (B * (s * y1)) = dfx x1) by (unfold s; field; fsd). clearbody s.
    exists s, (y1 - s * x1), (B * (s * s) - A - x1 - x1). split; [ring|]. split; [ring|].
    cbn in H1. unfold CurveSpec.fx in H1. unfold dfx in Es. unfold tri. split; [ring|]. split.
    + transitivity (1 - 2 * (B * (s * y1)) + 2 * (B * (s * s * x1))); [ring|]. rewrite Es. ring.
    + transitivity (B * (y1 * y1) - 2 * (B * (s * y1)) * x1 + B * (s * s * (x1 * x1))); [ring|]. rewrite H1, Es. ring.
  - assert (N' : x2 - x1 <> 0) by (apply sub_nz; auto).
    set (s := (y2 - y1) / (x2 - x1)).
    assert (E2 : y2 = y1 + s * (x2 - x1)) by (unfold s; field; fsd). clearbody s.
    exists s, (y1 - s * x1), (B * (s * s) - A - x1 - x2). split; [ring|]. split; [rewrite E2; ring|].
    cbn in H1, H2. unfold CurveSpec.fx in H1, H2.
    assert (D : 2 * (B * (s * (y1 - s * x1))) + B * (s * s) * (x1 + x2) = (x2 * x2 + x1 * x2 + x1 * x1) + A * (x1 + x2) + 1).
    { apply (mul_cancel F) with (x2 - x1); auto.
      transitivity (B * (y2 * y2) - B * (y1 * y1)); [rewrite E2; ring|]. rewrite H1, H2. ring. }
    unfold tri. split; [ring|]. split.
    + transitivity (1 - (2 * (B * (s * (y1 - s * x1))) + B * (s * s) * (x1 + x2)) + B * (s * s) * (x1 + x2)); [ring|]. rewrite D. ring.
    + transitivity (B * (y1 * y1) - (2 * (B * (s * (y1 - s * x1))) + B * (s * s) * (x1 + x2)) * x1 + B * (s * s) * x1 * x2); [ring|].
      rewrite H1, D. ring.
Qed.

Lemma neg_on M : on M -> on (neg M).
Proof. destruct M; cbn; auto. intros <-. ring. Qed.
Lemma neg_neg (M : point F) : neg (neg M) = M.
Proof. destruct M; cbn; auto. apply f_equal2; auto. ring. Qed.
Lemma padd_inf_l M : padd Inf M = M. Proof. reflexivity. Qed.
Lemma padd_inf_r' M : padd M Inf = M. Proof. destruct M; reflexivity. Qed.
Lemma padd_opp x y y' : y + y' = 0 -> padd (Aff x y) (Aff x y') = Inf.
Proof. intros E. cbn. destruct (kdec x x); [|contradiction]. destruct (kdec _ 0); [reflexivity|contradiction]. Qed.
Lemma padd_neg M : padd M (neg M) = Inf.
Proof. destruct M; [reflexivity|]. apply padd_opp. ring. Qed.

Lemma padd_neg' M : padd (neg M) M = Inf.
Proof. destruct M; [reflexivity|]. apply padd_opp. ring. Qed.

(** Case distinction used everywhere below. *)
Inductive add_spec (M N : point F) : Prop :=
| Ad_l : M = Inf -> add_spec M N
| Ad_r : N = Inf -> add_spec M N
| Ad_opp : N = neg M -> padd M N = Inf -> add_spec M N
| Ad_line s c x1 x2 x3 : M = Aff x1 (s * x1 + c) -> N = Aff x2 (s * x2 + c) -> tri s c x1 x2 x3 ->
    padd M N = Aff x3 (- (s * x3 + c)) -> add_spec M N.
Lemma add_cases M N : on M -> on N -> add_spec M N.
Proof.
  intros HM HN. destruct M as [|x1 y1]; [now apply Ad_l|]. destruct N as [|x2 y2]; [now apply Ad_r|].
  destruct (kdec x1 x2) as [Ex|Nx]; [destruct (kdec (y1 + y2) 0) as [Ey|Ny]|].
  - subst x2. apply Ad_opp; [|now apply padd_opp]. cbn. apply f_equal2; auto.
    transitivity (y1 + y2 - y1); [ring|]. rewrite Ey. ring.
  - destruct (add_line x1 y1 x2 y2 HM HN) as (s & c & x3 & -> & -> & Ht); [tauto|].
    eapply Ad_line; eauto. now apply line_add.
  - destruct (add_line x1 y1 x2 y2 HM HN) as (s & c & x3 & -> & -> & Ht); [tauto|].
    eapply Ad_line; eauto. now apply line_add.
Qed.

Theorem padd_on M N : on M -> on N -> on (padd M N).
Proof.
  intros HM HN. destruct (add_cases M N HM HN) as [->| ->|_ E|s c x1 x2 x3 _ _ Ht E].
  - exact HN.
  - now rewrite padd_inf_r'.
  - rewrite E. exact I.
  - rewrite E. apply (neg_on (Aff x3 _)). apply tri_sym in Ht as [_ Ht]. apply tri_sym in Ht as [Ht _]. eapply line_on; eauto.
Qed.
Theorem padd_comm M N : on M -> on N -> padd M N = padd N M.
Proof.
  intros HM HN. destruct (add_cases M N HM HN) as [->| ->|E1 E|s c x1 x2 x3 E1 E2 Ht E].
  - now rewrite padd_inf_r'.
  - now rewrite padd_inf_r'.
  - now rewrite E, E1, padd_neg'.
  - rewrite E, E1, E2. symmetry. apply line_add. exact (proj1 (tri_sym _ _ _ _ _ Ht)).
Qed.
Lemma neg_padd M N : on M -> on N -> neg (padd M N) = padd (neg M) (neg N).
Proof.
  intros HM HN. destruct (add_cases M N HM HN) as [->| ->|E1 E|s c x1 x2 x3 E1 E2 Ht E].
  - reflexivity.
  - cbn. now rewrite !padd_inf_r'.
  - rewrite E, E1, padd_neg. reflexivity.
  - rewrite E, E1, E2. cbn [neg].
    assert (Ht' : tri (- s) (- c) x1 x2 x3).
    { destruct Ht as (T1 & T2 & T3). unfold tri. rewrite <- T1, <- T2, <- T3. repeat split; ring. }
    pose proof (line_add _ _ _ _ _ Ht') as L.
    replace (- s * x1 + - c) with (- (s * x1 + c)) in L by ring.
    replace (- s * x2 + - c) with (- (s * x2 + c)) in L by ring. rewrite L. f_equal. ring.
Qed.
(** P + Q = -R is symmetric in P, Q, R. *)
Lemma padd_cancel M N : on M -> on N -> padd (neg M) (padd M N) = N.
Proof.
  intros HM HN. destruct (add_cases M N HM HN) as [->| ->|E1 E|s c x1 x2 x3 E1 E2 Ht E].
  - reflexivity.
  - now rewrite padd_inf_r', padd_neg'.
  - now rewrite E, E1, padd_inf_r'.
  - rewrite E, E1, E2. change (Aff x3 (- (s * x3 + c))) with (neg (Aff x3 (s * x3 + c))).
    apply tri_sym in Ht as [_ Ht].
    rewrite <- neg_padd.
    + rewrite (line_add _ _ _ _ _ Ht). apply (neg_neg (Aff x2 _)).
    + eapply line_on; eauto.
    + apply tri_sym in Ht as [Ht _]. eapply line_on; eauto.
Qed.

(** The function of the two lines through (x1, x2, t) and (t, x3, w), the latter through the reflected t. *)
Lemma two_lines l c1 s c3 x1 x2 t x3 w : tri l c1 x1 x2 t -> tri s c3 t x3 w -> s * t + c3 = - (l * t + c1) -> forall X,
  (X - x1) * (X - x2) + B * (l + s) * (l * X + c1) = (X - x3) * (X - w) + B * (l + s) * (s * X + c3).
Proof.
  intros (T1 & T2 & T3) (S1 & S2 & S3) E X.
  assert (Ec : c3 = - (l + s) * t - c1) by (transitivity (s * t + c3 - s * t); [ring|]; rewrite E; ring).
  assert (Ew : w = x1 + x2 - x3 + B * (s * s) - B * (l * l)).
  { transitivity (x1 + x2 - x3 + (- (x1 + x2 + t)) - (- (t + x3 + w))); [ring|]. rewrite <- T1, <- S1. ring. }
  assert (E2 : x1 * x2 - x3 * w = 2 * (B * (s * c3)) - 2 * (B * (l * c1)) - t * (x1 + x2 - x3 - w)).
  { transitivity ((x1 * x2 + x1 * t + x2 * t) - (t * x3 + t * w + x3 * w) - t * (x1 + x2 - x3 - w)); [ring|]. rewrite <- T2, <- S2. ring. }
  apply sub_eq.
  transitivity (- (x1 + x2 - x3 - w) * X + (x1 * x2 - x3 * w) + B * (l + s) * ((l - s) * X + c1 - c3)); [ring|].
  rewrite E2. subst w. rewrite Ec. ring.
Qed.

(** Associativity for three points not on a line, no two of them opposite. *)
Lemma assoc_core l c1 s c3 m c2 q c4 x1 x2 x3 y1 y2 y3 t t' w w' :
  y1 = l * x1 + c1 -> y2 = l * x2 + c1 -> tri l c1 x1 x2 t -> y3 = s * x3 + c3 -> tri s c3 t x3 w -> s * t + c3 = - (l * t + c1) ->
  y2 = m * x2 + c2 -> y3 = m * x3 + c2 -> tri m c2 x2 x3 t' -> y1 = q * x1 + c4 -> tri q c4 x1 t' w' -> q * t' + c4 = - (m * t' + c2) ->
  x1 <> x3 -> x3 <> x2 -> (x1 = x2 -> y1 <> 0) ->
  Aff w (- (s * w + c3)) = Aff w' (- (q * w' + c4)) :> point F.
Proof.
  intros Y1 Y2 T Y3 S E Y2' Y3' T' Y1' S' E' N13 N32 N12.
  pose proof (two_lines _ _ _ _ _ _ _ _ _ T S E) as G.
  assert (S'' : tri q c4 t' x1 w') by exact (proj1 (tri_sym _ _ _ _ _ S')).
  pose proof (two_lines _ _ _ _ _ _ _ _ _ T' S'' E') as H.
  set (k := B * (l + s)) in *. set (k' := B * (m + q)) in *.
  assert (M13 : x1 - x3 <> 0) by (now apply sub_nz). assert (M32 : x3 - x2 <> 0) by (now apply sub_nz).
  assert (K1 : k * (l - m) = x1 - x3).
  { apply (mul_cancel F) with (x3 - x2); auto.
    pose proof (G x3) as G3. rewrite <- Y3 in G3.
    assert (L3 : l * x3 + c1 = l * (x3 - x2) + y2) by (rewrite Y2; ring).
    assert (M3 : y3 = m * (x3 - x2) + y2) by (rewrite Y3', Y2'; ring).
    rewrite L3 in G3. rewrite M3 in G3.
    transitivity ((x3 - x1) * (x3 - x2) + k * (l * (x3 - x2) + y2) - k * (m * (x3 - x2) + y2) - (x3 - x1) * (x3 - x2)); [ring|].
    rewrite G3. ring. }
  assert (K2 : k' * (l - m) = x1 - x3).
  { destruct (kdec x1 x2) as [E12|Nx12].
    - assert (Ny : y1 <> 0) by auto. subst x2.
      assert (y1 = y2) as <- by congruence.
      assert (D : 2 * (B * y1) * (l - m) = (x1 - x3) * (x1 - t')).
      { pose proof (tri_df _ _ _ _ _ T) as D1. pose proof (tri_df _ _ _ _ _ T') as D2.
        rewrite <- Y1 in D1. rewrite <- Y2' in D2.
        transitivity (2 * (B * (l * y1)) + (x1 - x1) * (x1 - t) - 2 * (B * (m * y1))); [ring|]. rewrite <- D1, D2. ring. }
      assert (Kt : k' * (x1 - t') = 2 * (B * y1)).
      { unfold k'. transitivity (B * ((m * x1 + c2) + (q * x1 + c4) - (q * t' + c4) - (m * t' + c2))); [ring|].
        rewrite <- Y2', <- Y1', E'. ring. }
      assert (Nt : x1 - t' <> 0).
      { intros E0. rewrite E0 in Kt. apply (mul_nz 2 (B * y1)); auto using mul_nz. rewrite <- Kt. ring. }
      apply (mul_cancel F) with (x1 - t'); auto.
      transitivity (k' * (x1 - t') * (l - m)); [ring|]. rewrite Kt. exact D.
    - assert (M12 : x1 - x2 <> 0) by (now apply sub_nz).
      apply (mul_cancel F) with (x1 - x2); auto.
      pose proof (H x1) as H1. rewrite <- Y1' in H1.
      assert (L3 : m * x1 + c2 = m * (x1 - x2) + y2) by (rewrite Y2'; ring).
      assert (M3 : y1 = l * (x1 - x2) + y2) by (rewrite Y1, Y2; ring).
      rewrite L3, M3 in H1.
      transitivity (k' * (l * (x1 - x2) + y2) - k' * (m * (x1 - x2) + y2) + (x1 - x1) * (x1 - w')); [ring|].
      transitivity ((x1 - x2) * (x1 - x3) + k' * (m * (x1 - x2) + y2) - k' * (m * (x1 - x2) + y2)); [rewrite H1; ring|ring]. }
  assert (Nlm : l - m <> 0) by (intros E0; rewrite E0 in K1; apply M13; rewrite <- K1; ring).
  assert (Ek : k' = k) by (apply (mul_cancel F) with (l - m); auto; now rewrite K1, K2).
  assert (Nk : k <> 0) by (intros E0; rewrite E0 in K1; apply M13; rewrite <- K1; ring).
  assert (Els : l + s = m + q).
  { apply (mul_cancel F) with B; auto. transitivity k; [unfold k; ring|]. rewrite <- Ek. unfold k'. ring. }
  assert (Ew : w = w').
  { destruct T as (T1 & _), S as (S1 & _), T' as (T1' & _), S' as (S1' & _).
    assert (W1 : w = x1 + x2 - x3 + k * (s - l)).
    { transitivity (x1 + x2 - x3 + - (x1 + x2 + t) - - (t + x3 + w)); [ring|]. rewrite <- T1, <- S1. unfold k. ring. }
    assert (W2 : w' = x2 + x3 - x1 + k' * (q - m)).
    { transitivity (x2 + x3 - x1 + - (x2 + x3 + t') - - (x1 + t' + w')); [ring|]. rewrite <- T1', <- S1'. unfold k'. ring. }
    rewrite W1, W2, Ek. apply sub_eq.
    assert (Eq : q = l + s - m) by (rewrite Els; ring). rewrite Eq.
    transitivity (2 * (x1 - x3) - 2 * (k * (l - m))); [ring|]. rewrite K1. ring. }
  subst w'. apply f_equal2; [reflexivity|]. f_equal.
  apply (mul_cancel F) with k; auto. apply sub_eq.
  pose proof (G w) as G1. pose proof (H w) as H1. rewrite Ek in H1.
  assert (L : l * w + c1 = l * (w - x2) + y2) by (rewrite Y2; ring).
  assert (M : m * w + c2 = m * (w - x2) + y2) by (rewrite Y2'; ring).
  rewrite L in G1. rewrite M in H1.
  transitivity ((w - x3) * (w - w) + k * (s * w + c3) - ((w - x1) * (w - w) + k * (q * w + c4))); [ring|].
  rewrite <- G1, <- H1. transitivity ((w - x2) * (k * (l - m) - (x1 - x3))); [ring|]. rewrite K1. ring.
Qed.
Lemma aff_inj (x y x' y' : F) : Aff x y = Aff x' y' -> x = x' /\ y = y'.
Proof. intros E. now injection E. Qed.
Lemma assoc_gen x1 y1 x2 y2 x3 y3 : let M := Aff x1 y1 in let N := Aff x2 y2 in let R := Aff x3 y3 in
  on M -> on N -> on R -> x1 <> x3 -> x3 <> x2 -> padd M N <> Inf -> padd N R <> Inf ->
  padd (padd M N) R = padd M (padd N R).
Proof.
  intros M N R HM HN HR N13 N32 NI1 NI2.
  pose proof (padd_on M N HM HN) as HMN. pose proof (padd_on N R HN HR) as HNR.
  destruct (add_cases M N HM HN) as [D|D|_ E|l c1 a1 a2 t E1 E2 T E]; try discriminate; try contradiction.
  apply aff_inj in E1 as [<- Y1]. apply aff_inj in E2 as [<- Y2].
  destruct (add_cases N R HN HR) as [D|D|_ E'|m c2 a1' a2' t' E1' E2' T' E']; try discriminate; try contradiction.
  apply aff_inj in E1' as [<- Y2']. apply aff_inj in E2' as [<- Y3'].
  destruct (add_cases _ _ HMN HR) as [D|D|Ro E3|s c3 b1 b2 w Q1 Q2 S E3]; try discriminate; try contradiction.
  { (* R = - (M + N) *)
    rewrite E3. assert (En : padd N R = neg M).
    { rewrite Ro, (neg_padd M N HM HN). rewrite (padd_comm (neg M)); auto using neg_on.
      rewrite <- (neg_neg N) at 1. apply padd_cancel; auto using neg_on. }
    rewrite En. symmetry. apply padd_neg. }
  destruct (add_cases _ _ HM HNR) as [D|D|Ro E4|q c4 d1 d2 w' Q3 Q4 S' E4]; try discriminate; try contradiction.
  { rewrite E4. assert (En : padd M N = neg R).
    { rewrite <- (neg_neg M), <- Ro, (neg_padd N R HN HR).
      rewrite padd_comm; auto using neg_on; [|now apply padd_on; apply neg_on].
      rewrite <- (neg_neg N) at 1. apply padd_cancel; auto using neg_on. }
    rewrite En. apply padd_neg'. }
  rewrite E in Q1. apply aff_inj in Q1 as [<- Qt]. apply aff_inj in Q2 as [<- Y3].
  rewrite E' in Q4. apply aff_inj in Q4 as [<- Qt']. apply aff_inj in Q3 as [<- Y1'].
  rewrite E3, E4.
  apply (assoc_core l c1 s c3 m c2 q c4 x1 x2 x3 y1 y2 y3 t t' w w'); auto.
  intros E12 Ey. subst x2. apply (nonsing x1).
  - rewrite <- HM, Ey. ring.
  - rewrite (tri_df _ _ _ _ _ T), <- Y1, Ey. ring.
Qed.

Theorem padd_assoc M N R : on M -> on N -> on R -> padd (padd M N) R = padd M (padd N R).
Proof.
  intros HM HN HR.
  destruct M as [|x1 y1]; [reflexivity|]. destruct N as [|x2 y2]; [reflexivity|].
  destruct R as [|x3 y3]; [now rewrite !padd_inf_r'|].
  set (M := Aff x1 y1) in *. set (N := Aff x2 y2) in *. set (R := Aff x3 y3) in *.
  assert (OPP : forall P Q, on P -> on Q -> padd P Q = Inf -> Q = neg P).
  { intros P Q HP HQ E. pose proof (padd_cancel P Q HP HQ) as C. rewrite E, padd_inf_r' in C. now rewrite C. }
  assert (OP : forall x y y', on (Aff x y) -> on (Aff x y') -> Aff x y' = Aff x y \/ Aff x y' = neg (Aff x y)).
  { intros x y y' H H'. cbn. destruct (kdec (y + y') 0) as [E|E].
    - right. f_equal. transitivity (y + y' - y); [ring|]. rewrite E. ring.
    - left. f_equal. symmetry. eapply y_cases; eauto. }
  assert (INF : forall P : point F, P = Inf \/ P <> Inf) by (intros [|]; [now left|right; discriminate]).
  destruct (INF (padd M N)) as [E|N1].
  { rewrite E. apply OPP in E; auto. rewrite E. rewrite <- (neg_neg M) at 1. rewrite padd_cancel; auto using neg_on. }
  destruct (INF (padd N R)) as [E|N2].
  { rewrite E, padd_inf_r'. apply OPP in E; auto. rewrite E, (padd_comm M N), padd_comm; auto using neg_on, padd_on.
    now apply padd_cancel. }
  destruct (kdec x1 x3) as [E13|N13].
  { destruct (OP x1 y1 y3) as [E|E]; auto; [subst; exact HR| |]; rewrite E13 in E at 1.
    - change (R = M) in E. rewrite E. rewrite (padd_comm N M) by auto. now rewrite padd_comm by auto using padd_on.
    - change (R = neg M) in E. rewrite E. rewrite (padd_comm N (neg M)) by auto using neg_on.
      rewrite <- (neg_neg M) at 3. rewrite (padd_cancel (neg M)) by auto using neg_on.
      rewrite padd_comm by auto using padd_on, neg_on. now apply padd_cancel. }
  destruct (kdec x3 x2) as [E32|N32].
  - assert (ER : R = N).
    { destruct (OP x2 y2 y3) as [E|E]; auto; [subst; exact HR| |]; rewrite <- E32 in E at 1; change (R = N) in E || change (R = neg N) in E; auto.
      exfalso. apply N2. rewrite E. apply padd_neg. }
    rewrite ER in *. rewrite (padd_comm M (padd N N)), (padd_comm M N), (padd_comm (padd N M) N) by auto using padd_on.
    symmetry. apply assoc_gen; auto; try congruence. rewrite padd_comm; auto.
  - apply assoc_gen; auto.
Qed.
End G.
