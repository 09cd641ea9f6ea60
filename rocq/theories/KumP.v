(** The relation between x(M), x(N), x(M + N) and x(M - N), and that the isogenies of degree 2, 3 and 4 keep it. *)
From Coq Require Import Field.
From Verif Require Import Base Out Params Ops Ec Models Fld FieldOps CurveSpec IsogSpec ModelSpec XSpec WalkSpec FldCurve GroupP MultP IsoP FldIsog FldModels
  XLine XIso Strategy XChain CheckP XIsog WalkP SquareP.
Set Bullet Behavior "Strict Subproofs".

Section KU.
Variable F : fld.
Hypothesis two : (kadd k1 k1 : F) <> k0.
Local Open Scope fld_scope.
Definition kth12 := kth F.
Add Field KF12 : kth12.
Ltac fsd := repeat match goal with |- _ /\ _ => split end;
  first [assumption | exact two | exact (four_nz F two) | apply (neg_nz F); assumption].
Ltac toF_eq := match goal with |- ?a = ?b => change (@eq (K F) a b) end.
Ltac rng := toF_eq; ring.
Implicit Types (A B k m x t u l X Z : F) (q r s d : xl F).
Local Notation dm T := (T F (k0 : F) (fun x : F => x) (fun _ _ : F => false) (fun _ : F => @nil Z) (fun _ : list Z => (k0 : F)) (fun _ : tape => @NoTape (F * tape))).

Definition V1 (X1 Z1 X2 Z2 : F) : F := (X1 * X2 - Z1 * Z2) * (X1 * X2 - Z1 * Z2).
Definition V2 (A X1 Z1 X2 Z2 : F) : F := 2 * ((X1 * Z2 + X2 * Z1) * (X1 * X2 + Z1 * Z2) + 2 * (A * (X1 * X2 * (Z1 * Z2)))).
Definition V3 (X1 Z1 X2 Z2 : F) : F := (X1 * Z2 - X2 * Z1) * (X1 * Z2 - X2 * Z1).
Definition XT A q1 q2 s d : Prop := exists X1 Z1 X2 Z2 Xs Zs Xd Zd l : F, l <> 0 /\ rep X1 Z1 q1 /\ rep X2 Z2 q2 /\ rep Xs Zs s /\ rep Xd Zd d /\
  Xs * Xd = l * V1 X1 Z1 X2 Z2 /\ Xs * Zd + Xd * Zs = l * V2 A X1 Z1 X2 Z2 /\ Zs * Zd = l * V3 X1 Z1 X2 Z2.

Lemma rep_scale X Z X' Z' q : rep X Z q -> rep X' Z' q -> exists c : F, c <> 0 /\ X' = c * X /\ Z' = c * Z.
Proof.
  destruct q as [|x]; cbn; intros [N ->] [N' ->].
  - exists (X' / X). assert (X' / X <> 0). { intros E. apply N'. transitivity (X' / X * X); [field; auto|]. rewrite E. ring. }
    repeat split; auto; toF_eq; field; auto.
  - exists (Z' / Z). assert (Z' / Z <> 0). { intros E. apply N'. transitivity (Z' / Z * Z); [field; auto|]. rewrite E. ring. }
    repeat split; auto; toF_eq; field; auto.
Qed.
Lemma XT_any A q1 q2 s d X1 Z1 X2 Z2 Xs Zs Xd Zd : XT A q1 q2 s d -> rep X1 Z1 q1 -> rep X2 Z2 q2 -> rep Xs Zs s -> rep Xd Zd d ->
  exists l, l <> 0 /\ Xs * Xd = l * V1 X1 Z1 X2 Z2 /\ Xs * Zd + Xd * Zs = l * V2 A X1 Z1 X2 Z2 /\ Zs * Zd = l * V3 X1 Z1 X2 Z2.
Proof.
  intros (Y1 & T1 & Y2 & T2 & Ys & Ts & Yd & Td & l & Nl & R1 & R2 & Rs & Rd & E1 & E2 & E3) H1 H2 Hs Hd.
  destruct (rep_scale X1 Z1 Y1 T1 q1 H1 R1) as (c1 & N1 & -> & ->). destruct (rep_scale X2 Z2 Y2 T2 q2 H2 R2) as (c2 & N2 & -> & ->).
  destruct (rep_scale _ _ _ _ _ Rs Hs) as (cs & Ns & -> & ->). destruct (rep_scale _ _ _ _ _ Rd Hd) as (cd & Nd & -> & ->).
  exists (cs * cd * l * (c1 * c1 * (c2 * c2))). split; [repeat apply (mul_nz F); auto|].
  unfold V1, V2, V3 in *. repeat split.
  - transitivity (cs * cd * (Ys * Yd)); [ring|]. rewrite E1. ring.
  - transitivity (cs * cd * (Ys * Td + Yd * Ts)); [ring|]. rewrite E2. ring.
  - transitivity (cs * cd * (Ts * Td)); [ring|]. rewrite E3. ring.
Qed.
Lemma XT_swap A q1 q2 s d : XT A q1 q2 s d -> XT A q1 q2 d s.
Proof.
  intros (Y1 & T1 & Y2 & T2 & Ys & Ts & Yd & Td & l & Nl & R1 & R2 & Rs & Rd & E1 & E2 & E3).
  exists Y1, T1, Y2, T2, Yd, Td, Ys, Ts, l. repeat (split; [assumption|]). repeat split.
  - rewrite <- E1. ring.
  - rewrite <- E2. ring.
  - rewrite <- E3. ring.
Qed.
Lemma XT_comm A q1 q2 s d : XT A q1 q2 s d -> XT A q2 q1 s d.
Proof.
  intros (Y1 & T1 & Y2 & T2 & Ys & Ts & Yd & Td & l & Nl & R1 & R2 & Rs & Rd & E1 & E2 & E3).
  exists Y2, T2, Y1, T1, Ys, Ts, Yd, Td, l. repeat (split; [assumption|]). unfold V1, V2, V3 in *. repeat split.
  - rewrite E1. ring.
  - rewrite E2. ring.
  - rewrite E3. ring.
Qed.

(** ** Sums and differences of points *)
Section G.
Variables A B : F.
Hypothesis HA : A * A <> 4.
Hypothesis HB : B <> 0.
Lemma rep_1 x : rep x 1 (XF x). Proof. split; [apply (one_nz F)|ring]. Qed.
Lemma rep_i : rep (1 : F) 0 XInf. Proof. split; [apply (one_nz F)|reflexivity]. Qed.
Lemma XT_same M : on A B M -> XT A (xof M) (xof M) (xof (padd A B M M)) XInf.
Proof.
  intros HM. rewrite <- (dblx_pt F two A B M HA HB HM).
  destruct M as [|x y].
  - exists 1, 0, 1, 0, 1, 0, 1, 0, 1. split; [apply (one_nz F)|]. do 4 (split; [apply rep_i|]). unfold V1, V2, V3. repeat split; ring.
  - cbn [xof dblx]. destruct (kdec (fx A x) 0) as [E|N].
    + assert (N1 : (x * x - 1) * (x * x - 1) <> 0).
      { intros E0. destruct (kdec (x * x) 1) as [E1|N1]; [|revert E0; apply (mul_nz F); apply (sub_nz F); auto].
        apply HA. assert (Y : x * (2 + A * x) = 0). { rewrite <- E. unfold fx. transitivity (x * (1 + A * x + 1)); [ring|]. rewrite <- E1 at 1. ring. }
        assert (Nx : x <> 0). { intros ->. apply (one_nz F). rewrite <- E1. ring. }
        assert (Y2 : A * x = - (2)). { destruct (kdec (2 + A * x) 0) as [E2|N2]; [|exfalso; revert Y; now apply (mul_nz F)]. transitivity (2 + A * x - 2); [ring|]. rewrite E2. ring. }
        transitivity (A * x * (A * x)); [transitivity (A * A * 1); [ring|]; rewrite <- E1; ring|]. rewrite Y2. ring. }
      assert (N0 : x * x - 1 <> 0) by (intros E0; apply N1; rewrite E0; ring).
      exists x, 1, x, 1, 1, 0, 1, 0, (1 / ((x * x - 1) * (x * x - 1))).
      split. { intros E1. apply (one_nz F). transitivity (1 / ((x * x - 1) * (x * x - 1)) * ((x * x - 1) * (x * x - 1))); [field; auto|rewrite E1; ring]. }
      do 2 (split; [apply rep_1|]). do 2 (split; [apply rep_i|]). unfold V1, V2, V3. repeat split.
      * toF_eq. field. auto.
      * transitivity (1 / ((x * x - 1) * (x * x - 1)) * (4 * fx A x)); [rewrite E; ring|]. unfold fx. ring.
      * ring.
    + exists x, 1, x, 1, ((x * x - 1) * (x * x - 1)), (4 * fx A x), 1, 0, 1.
      split; [apply (one_nz F)|]. do 2 (split; [apply rep_1|]). split; [|split; [apply rep_i|]].
      * cbn. assert (4 * fx A x <> 0) by (apply (mul_nz F); auto; exact (four_nz F two)). split; auto. toF_eq. field. fsd.
      * unfold V1, V2, V3, fx. repeat split; ring.
Qed.
Lemma XT_pt M N : on A B M -> on A B N -> XT A (xof M) (xof N) (xof (padd A B M N)) (xof (padd A B M (neg N))).
Proof.
  intros HM HN. destruct M as [|x1 y1].
  - destruct N as [|x y]; [exact (XT_same Inf I)|]. cbn. exists 1, 0, x, 1, x, 1, x, 1, 1.
    split; [apply (one_nz F)|]. split; [apply rep_i|]. do 3 (split; [apply rep_1|]). unfold V1, V2, V3. repeat split; ring.
  - destruct N as [|x2 y2].
    { cbn. exists x1, 1, 1, 0, x1, 1, x1, 1, 1. split; [apply (one_nz F)|]. split; [apply rep_1|]. split; [apply rep_i|]. do 2 (split; [apply rep_1|]). unfold V1, V2, V3. repeat split; ring. }
    destruct (kdec x1 x2) as [<-|Nx].
    + destruct (kdec (y1 + y2) 0) as [E|Ny].
      * assert (y2 = - y1) as -> by (transitivity (y1 + y2 - y1); [ring|rewrite E; ring]).
        change (Aff x1 (- y1)) with (neg (Aff x1 y1)) in *. rewrite neg_neg, (padd_neg F A B). change (xof (neg (Aff x1 y1))) with (xof (Aff x1 y1)). apply XT_swap, (XT_same (Aff x1 y1)). auto.
      * assert (y1 = y2) as <-. { eapply (y_cases F A B HB); eauto. }
        rewrite (padd_neg F A B). apply (XT_same (Aff x1 y1)). auto.
    + cbn [neg padd]. destruct (kdec x1 x2) as [|_]; [contradiction|]. cbn [chord xof].
      assert (Nd : x2 - x1 <> 0) by (apply (sub_nz F); auto).
      pose proof (diff_id F A B x1 y1 x2 y2 HM HN) as DI. cbn [on] in HM, HN.
      do 8 eexists. exists (1 / ((x2 - x1) * (x2 - x1))).
      split. { intros E1. apply (one_nz F). transitivity (1 / ((x2 - x1) * (x2 - x1)) * ((x2 - x1) * (x2 - x1))); [field; auto|rewrite E1; ring]. }
      do 4 (split; [apply rep_1|]). unfold V1, V2, V3. repeat split.
      * transitivity ((B * ((y2 - y1) * (y2 - y1)) - (A + x1 + x2) * ((x2 - x1) * (x2 - x1))) * (B * ((y2 + y1) * (y2 + y1)) - (A + x1 + x2) * ((x2 - x1) * (x2 - x1))) / ((x2 - x1) * (x2 - x1) * ((x2 - x1) * (x2 - x1)))).
        { toF_eq. field. auto. }
        rewrite DI. toF_eq. field. auto.
      * transitivity ((2 * (B * (y1 * y1) + B * (y2 * y2)) - 2 * ((A + x1 + x2) * ((x2 - x1) * (x2 - x1)))) / ((x2 - x1) * (x2 - x1))).
        { toF_eq. field. auto. }
        rewrite HM, HN. unfold fx. toF_eq. field. auto.
      * toF_eq. field. auto.
Qed.
End G.

(** ** The isogenies keep the relation *)
Lemma XT_negx A q1 q2 s d : XT A q1 q2 s d -> XT (- A) (negx F q1) (negx F q2) (negx F s) (negx F d).
Proof.
  assert (R : forall X Z q, rep X Z q -> rep (- X) Z (negx F q)).
  { intros X Z [|x] [N ->]; split; auto; [apply (neg_nz F); auto|rng]. }
  intros (Y1 & T1 & Y2 & T2 & Ys & Ts & Yd & Td & l & Nl & R1 & R2 & Rs & Rd & E1 & E2 & E3).
  exists (- Y1), T1, (- Y2), T2, (- Ys), Ts, (- Yd), Td, l. split; [auto|]. do 4 (split; [apply R; auto|]). unfold V1, V2, V3 in *. repeat split.
  - transitivity (Ys * Yd); [ring|]. rewrite E1. ring.
  - transitivity (- (Ys * Td + Yd * Ts)); [ring|]. rewrite E2. ring.
  - rewrite E3. ring.
Qed.
Lemma XT_phi2 A m q1 q2 s d : A * A <> 4 -> ker2 A m -> XT A q1 q2 s d -> XT (A2 m) (phi2x m q1) (phi2x m q2) (phi2x m s) (phi2x m d).
Proof.
  intros HA Hm. destruct (ker2_rel F A m HA Hm) as (Nm & Em & N1).
  intros (Y1 & T1 & Y2 & T2 & Ys & Ts & Yd & Td & l & Nl & R1 & R2 & Rs & Rd & E1 & E2 & E3).
  assert (HAm : A * m = - (m * m + 1)) by (transitivity (m * m + A * m + 1 - (m * m + 1)); [ring|rewrite Em; ring]).
  do 8 eexists. exists (l * l / (m * m)).
  split. { intros E. apply Nl. assert (Y : l * l = 0) by (transitivity (l * l / (m * m) * (m * m)); [field; auto|rewrite E; ring]). destruct (kdec l 0); auto. exfalso. revert Y. now apply (mul_nz F). }
  do 4 (split; [apply phi2_proj; eauto|]).
  assert (EA : A = - (m * m + 1) / m) by (rewrite <- HAm; field; auto).
  split; [|split].
  - transitivity ((Ys * Yd) * (m * m * (Ys * Yd) - m * (Ys * Td + Yd * Ts) + Ts * Td)); [ring|].
    rewrite E1, E2, E3, EA. unfold V1, V2, V3. toF_eq. field. auto.
  - transitivity (m * (Ys * Yd + Ts * Td) * (Ys * Td + Yd * Ts) - m * m * ((Ys * Td + Yd * Ts) * (Ys * Td + Yd * Ts) - 2 * ((Ys * Yd) * (Ts * Td))) - 2 * ((Ys * Yd) * (Ts * Td))); [ring|].
    rewrite E1, E2, E3, EA. unfold V1, V2, V3, A2. toF_eq. field. auto.
  - transitivity ((Ts * Td) * (Ys * Yd - m * (Ys * Td + Yd * Ts) + m * m * (Ts * Td))); [ring|].
    rewrite E1, E2, E3, EA. unfold V1, V2, V3. toF_eq. field. auto.
Qed.
Lemma XT_phi3 A t q1 q2 s d : A * A <> 4 -> ker3 A t -> XT A q1 q2 s d -> XT (A3 A t) (phi3x t q1) (phi3x t q2) (phi3x t s) (phi3x t d).
Proof.
  intros HA Ht. destruct (ker3_rel F two A t HA Ht) as (Nt & Et & N1).
  intros (Y1 & T1 & Y2 & T2 & Ys & Ts & Yd & Td & l & Nl & R1 & R2 & Rs & Rd & E1 & E2 & E3).
  assert (EA : A = - (3 * (t * t * (t * t)) + 2 * 3 * (t * t) - 1) / (4 * (t * t * t))).
  { transitivity ((div3 A t - (3 * (t * t * (t * t)) + 2 * 3 * (t * t) - 1)) / (4 * (t * t * t))); [unfold div3; field; fsd|]. rewrite Et. field. fsd. }
  do 8 eexists. exists (l * l * l / (t * t * (t * t))).
  split. { intros E. assert (Y : l * l * l = 0) by (transitivity (l * l * l / (t * t * (t * t)) * (t * t * (t * t))); [field; auto|rewrite E; ring]). revert Y. repeat apply (mul_nz F); auto. }
  do 4 (split; [apply phi3_proj; eauto|]).
  split; [|split].
  - transitivity ((Ys * Yd) * ((t * t * (Ys * Yd) - t * (Ys * Td + Yd * Ts) + Ts * Td) * (t * t * (Ys * Yd) - t * (Ys * Td + Yd * Ts) + Ts * Td))); [ring|].
    rewrite E1, E2, E3, EA. unfold V1, V2, V3. toF_eq. field. fsd.
  - set (W := t * (Ys * Yd + Ts * Td)). set (p := Ys * Yd * (Ts * Td)). set (U2 := Ys * Td + Yd * Ts).
    transitivity (W * W * U2 - 2 * (W * (t * t * (U2 * U2 - 2 * p) + 2 * p)) + t * t * (t * t) * (U2 * U2 * U2 - 3 * (p * U2)) + (2 * (t * t) + 1) * (p * U2)); [unfold W, p, U2; ring|].
    unfold W, p, U2. rewrite E1, E2, E3. unfold A3. rewrite EA. unfold V1, V2, V3. toF_eq. field. fsd.
  - transitivity ((Ts * Td) * ((Ys * Yd - t * (Ys * Td + Yd * Ts) + t * t * (Ts * Td)) * (Ys * Yd - t * (Ys * Td + Yd * Ts) + t * t * (Ts * Td)))); [ring|].
    rewrite E1, E2, E3, EA. unfold V1, V2, V3. toF_eq. field. fsd.
Qed.
End KU.
