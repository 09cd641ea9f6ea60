(** Isogenies of degree 2, 3, 4 and isomorphisms of the domain: the isogeny from another model of the curve with the moved
    kernel; curves with more than two automorphisms. *)
From Coq Require Import Field.
From Verif Require Import Base Out Params Ops Ec Models Fld FieldOps CurveSpec IsogSpec ModelSpec XSpec WalkSpec FldCurve GroupP MultP IsoP FldIsog FldModels
  XLine XIso Strategy XChain CheckP XIsog WalkP SquareP KumP GridP.
Set Bullet Behavior "Strict Subproofs".

Section IS.
Variable F : fld.
Hypothesis two : (kadd k1 k1 : F) <> k0.
Hypothesis three : (kadd k1 (kadd k1 k1) : F) <> k0.
Local Open Scope fld_scope.
Definition kth17 := kth F.
Add Field KF17 : kth17.
Ltac toF_eq := match goal with |- ?a = ?b => change (@eq (K F) a b) end.
Ltac rng := toF_eq; ring.
Implicit Types (A B k m x t u r s : F) (q : xl F).
Local Notation dm T := (T F (k0 : F) (fun x : F => x) (fun _ _ : F => false) (fun _ : F => @nil Z) (fun _ : list Z => (k0 : F)) (fun _ : tape => @NoTape (F * tape))).
Local Notation dn T := (T F (fun x : F => x) (fun _ _ : F => false) (fun _ : F => @nil Z) (fun _ : list Z => (k0 : F)) (fun _ : tape => @NoTape (F * tape))).

Definition dual k : xl F := XF (- (1) / (3 * k)).
Lemma iso_r0 A B u : iso_to A B 0 u -> u * u = 1 /\ B = u * A.
Proof.
  intros (Nu & _ & H2 & H3). assert (E : u * u = 1) by (rewrite H2; ring). split; [auto|].
  transitivity (u * u * B); [rewrite E; ring|]. transitivity (u * (u * B)); [ring|]. rewrite H3. ring.
Qed.
Lemma iso_r A B r u : iso_to A B r u -> r <> 0 -> r * r + A * r + 1 = 0 /\ u * u = r * r - 1.
Proof.
  intros (Nu & H1 & H2 & H3) Nr. unfold fx in H1. assert (E : r * r + A * r + 1 = 0).
  { apply (mul_cancel F) with r; [auto|]. transitivity (r * r * r + A * (r * r) + r); [ring|rewrite H1; ring]. }
  split; [auto|]. rewrite H2. transitivity (2 * (r * r + A * r + 1) + (r * r - 1)); [ring|]. rewrite E. ring.
Qed.

(** ** Degree 3 *)
Section D3.
Variables A B r u k : F.
Hypothesis HA : A * A <> 4.
Hypothesis HI : iso_to A B r u.
Hypothesis Hk : ker3 A k.
Lemma kr_nz : k - r <> 0.
Proof.
  intros E. apply (sub_eq F) in E. destruct (ker3_rel F two A k HA Hk) as (_ & Ek & _). destruct HI as (Nu & H1 & H2 & H3).
  unfold div3 in Ek. unfold fx in H1. rewrite E in Ek. apply (mul_nz F _ _ (mul_nz F _ _ Nu Nu) (mul_nz F _ _ Nu Nu)). rewrite H2.
  transitivity (2 * (r * r * r + A * (r * r) + r) * (2 * 3 * r + 2 * A) - (3 * (r * r * (r * r)) + 4 * (A * (r * r * r)) + 2 * (3 * (r * r)) - 1)); [ring|].
  rewrite H1, Ek. ring.
Qed.
Definition s3 : F := r + u * u / (k - r).
Definition r3 : F := r * (s3 * s3).
Definition u3 : F := u * (u * u) * (k * k) / ((k - r) * (k - r)).
Definition k3 : F := (k - r) / u.
Lemma k_nz : k <> 0. Proof. apply (ker3_rel F two A k HA Hk). Qed.
Lemma k3_nz : k3 <> 0.
Proof. intros E. apply kr_nz. destruct HI as (Nu & _). transitivity (k3 * u); [unfold k3; field; auto|]. rewrite E. ring. Qed.
Lemma u3_nz : u3 <> 0.
Proof.
  destruct HI as (Nu & _). pose proof kr_nz as Nd. pose proof k_nz as Nk. intros E.
  assert (X : u * (u * u) * (k * k) = 0). { transitivity (u3 * ((k - r) * (k - r))); [unfold u3; field; auto|]. rewrite E. ring. }
  revert X. repeat apply (mul_nz F); auto.
Qed.
Lemma relR : r <> 0 -> 3 * (k * k * (k * k)) * r - 4 * ((r * r + 1) * (k * k * k)) + 2 * (3 * (k * k)) * r - r = 0.
Proof.
  intros Nr. destruct (iso_r A B r u HI Nr) as [E1 E2]. destruct (ker3_rel F two A k HA Hk) as (_ & Et & _). unfold div3 in Et.
  transitivity ((3 * (k * k * (k * k)) + 4 * (A * (k * k * k)) + 2 * (3 * (k * k)) - 1) * r - 4 * (k * k * k) * (r * r + A * r + 1)); [ring|].
  rewrite Et, E1. ring.
Qed.
Lemma s3_r : r <> 0 -> s3 = (r * k - 1) / (k - r).
Proof. intros Nr. pose proof kr_nz as Nd. destruct (iso_r A B r u HI Nr) as [_ E2]. unfold s3. rewrite E2. toF_eq. field. auto. Qed.
Lemma eq1 : r3 = k * k * (r + 2 * s3) - 2 * k.
Proof.
  pose proof kr_nz as Nd. pose proof k_nz as Nk. destruct (kdec r 0) as [Er|Nr].
  - unfold r3, s3. pose proof HI as HI0. rewrite Er in *. destruct (iso_r0 A B u HI0) as [E _]. rewrite E. toF_eq. field. auto.
  - pose proof (relR Nr) as R. apply (sub_eq F).
    transitivity ((3 * (k * k * (k * k)) * r - 4 * ((r * r + 1) * (k * k * k)) + 2 * (3 * (k * k)) * r - r) / ((k - r) * (k - r)) * - (1)).
    + unfold r3. rewrite (s3_r Nr). toF_eq. field. auto.
    + rewrite R. field. auto.
Qed.
Lemma eq2 : 1 + 2 * k * r3 = k * k * (s3 * s3 + 2 * (r * s3)).
Proof.
  pose proof kr_nz as Nd. pose proof k_nz as Nk. destruct (kdec r 0) as [Er|Nr].
  - unfold r3, s3. pose proof HI as HI0. rewrite Er in *. destruct (iso_r0 A B u HI0) as [E _]. rewrite E. toF_eq. field. auto.
  - pose proof (relR Nr) as R. apply (sub_eq F).
    transitivity ((3 * (k * k * (k * k)) * r - 4 * ((r * r + 1) * (k * k * k)) + 2 * (3 * (k * k)) * r - r) / ((k - r) * (k - r)) * - r).
    + unfold r3. rewrite (s3_r Nr). toF_eq. field. auto.
    + rewrite R. field. auto.
Qed.
Lemma key3 x : x * ((k * x - 1) * (k * x - 1)) - r3 * ((x - k) * (x - k)) = k * k * ((x - r) * ((x - s3) * (x - s3))).
Proof.
  pose proof eq1 as E1. pose proof eq2 as E2. apply (sub_eq F).
  transitivity (x * (1 + 2 * k * r3 - k * k * (s3 * s3 + 2 * (r * s3))) - x * x * (r3 - (k * k * (r + 2 * s3) - 2 * k)) - k * k * (r3 - r * (s3 * s3))); [ring|].
  rewrite E2, <- E1. unfold r3. ring.
Qed.
Lemma phi3_iso q : phi3x k3 (isox r u q) = isox r3 u3 (phi3x k q).
Proof.
  pose proof kr_nz as Nd. pose proof k_nz as Nk. destruct HI as (Nu & _). pose proof u3_nz as Nu3. destruct q as [|x]; [reflexivity|]. cbn [isox phi3x].
  destruct (kdec x k) as [->|N].
  - destruct (kdec ((k - r) / u) k3) as [|X]; [reflexivity|]. exfalso. apply X. reflexivity.
  - assert (Nx : x - k <> 0) by (apply (sub_nz F); auto).
    destruct (kdec ((x - r) / u) k3) as [X|NX].
    { exfalso. apply N. apply (sub_eq F). transitivity (((x - r) / u - k3) * u); [unfold k3; field; auto|]. rewrite X. ring. }
    cbn [isox]. f_equal.
    assert (Y : x * ((k * x - 1) * (k * x - 1)) / ((x - k) * (x - k)) - r3 = k * k * ((x - r) * ((x - s3) * (x - s3))) / ((x - k) * (x - k))).
    { rewrite <- key3. toF_eq. field. auto. }
    rewrite Y. unfold u3, k3, s3 in *. assert (Nu2 : (x - r) / u - (k - r) / u <> 0) by (apply (sub_nz F); auto).
    assert (D : (x - r) / u - (k - r) / u = (x - k) / u) by (toF_eq; field; auto). rewrite D in *.
    assert (Nq : u * (u * u) * (k * k) <> 0) by (repeat apply (mul_nz F); auto).
    toF_eq. field. repeat split; auto.
Qed.
Lemma cod3_iso : iso_to (A3 A k) (A3 B k3) r3 u3.
Proof.
  pose proof kr_nz as Nd. pose proof k_nz as Nk. pose proof u3_nz as Nu3. pose proof HI as (Nu & H1 & H2 & H3). pose proof k3_nz as Nk3.
  assert (N1 : k * k - 1 <> 0) by (apply (sub_nz F), (ker3_rel F two A k HA Hk)).
  assert (HB : u3 * A3 B k3 = 3 * r3 + A3 A k).
  { transitivity (k * k * (u * B - 2 * 3 * (k - r) + 2 * 3 * (u * u / (k - r)))); [unfold u3, k3, A3; toF_eq; field; auto|].
    rewrite H3. transitivity (A3 A k + 3 * (k * k * (r + 2 * s3) - 2 * k)); [unfold A3, s3; toF_eq; field; auto|]. rewrite <- eq1. ring. }
  destruct (kdec r 0) as [Er|Nr].
  { pose proof HI as HI0. rewrite Er in HI0. destruct (iso_r0 A B u HI0) as [E _]. assert (E3 : r3 = 0) by (unfold r3; rewrite Er; ring).
    assert (E4 : u3 = u). { unfold u3. rewrite E, Er. field. rewrite Er in Nd. auto. }
    split; [auto|]. split; [rewrite E3; unfold fx; ring|]. split; [rewrite E3, E4, E; ring|exact HB]. }
  destruct (iso_r A B r u HI Nr) as [E1 E2].
  assert (Hr : ker2 A r) by (split; [auto|now apply two_tors]).
  destruct (ker2_phi3 F two A k r HA Hk Hr) as (m' & Em & Hm').
  assert (EM : m' = r3).
  { cbn in Em. destruct (kdec r k) as [X|_]; [exfalso; apply Nd; rewrite X; ring|]. assert (Nd' : r - k <> 0) by (intros X; apply Nd; transitivity (- (r - k)); [ring|rewrite X; ring]).
    assert (X : r * ((k * r - 1) * (k * r - 1)) / ((r - k) * (r - k)) = m') by congruence. rewrite <- X. unfold r3. rewrite (s3_r Nr). toF_eq. field. auto. }
  subst m'. destruct (ker2_rel F _ _ (dm cod3 two A HA k Hk) Hm') as (Nr3 & E3 & _).
  split; [auto|]. split; [apply two_tors, Hm'|]. split; [|exact HB].
  transitivity (2 * (r3 * r3 + A3 A k * r3 + 1) + (r3 * r3 - 1)); [|ring]. rewrite E3.
  assert (S1 : 1 - s3 * s3 = (k * k - 1) * (1 - r * r) / ((k - r) * (k - r))) by (rewrite (s3_r Nr); toF_eq; field; auto).
  assert (Y : (k * k - 1) * (k * k - 1) * (1 - r3 * r3) = k * k * (k * k) * ((1 - r * r) * ((1 - s3 * s3) * (1 - s3 * s3)))).
  { pose proof (key3 1) as K1. pose proof (key3 (- (1))) as K2.
    transitivity (- ((1 * ((k * 1 - 1) * (k * 1 - 1)) - r3 * ((1 - k) * (1 - k))) * (- (1) * ((k * - (1) - 1) * (k * - (1) - 1)) - r3 * ((- (1) - k) * (- (1) - k))))); [ring|].
    rewrite K1, K2. ring. }
  rewrite S1 in Y. apply (mul_cancel F) with ((k * k - 1) * (k * k - 1)); [now apply (mul_nz F)|].
  transitivity (- (((k * k - 1) * (k * k - 1)) * (1 - r3 * r3))); [|ring]. rewrite Y. unfold u3.
  transitivity ((k * k - 1) * (k * k - 1) * (u * u * (u * u) * (u * u)) * (k * k * (k * k)) / ((k - r) * (k - r) * ((k - r) * (k - r)))); [toF_eq; field; auto|].
  rewrite E2. toF_eq. field. auto.
Qed.
Lemma dual_iso : isox r3 u3 (dual k) = dual k3.
Proof.
  pose proof kr_nz as Nd. pose proof k_nz as Nk. pose proof u3_nz as Nu3. pose proof HI as (Nu & H1 & H2 & H3). pose proof k3_nz as Nk3.
  unfold dual. cbn [isox]. f_equal.
  assert (Y : (1 + 3 * (k * r3)) * ((k - r) * ((k - r) * (k - r))) = u * u * (u * u) * (k * (k * k))).
  { destruct (kdec r 0) as [Er|Nr].
    - pose proof HI as HI0. rewrite Er in HI0. destruct (iso_r0 A B u HI0) as [E _]. unfold r3. rewrite E, Er. ring.
    - destruct (iso_r A B r u HI Nr) as [E1 E2]. rewrite E2. apply (sub_eq F).
      transitivity (r * r * (3 * (k * k * (k * k)) * r - 4 * ((r * r + 1) * (k * k * k)) + 2 * (3 * (k * k)) * r - r)).
      + unfold r3. rewrite (s3_r Nr). toF_eq. field. auto.
      + rewrite (relR Nr). ring. }
  apply (mul_cancel F) with (3 * (k * u3)); [repeat apply (mul_nz F); auto|].
  transitivity (- (1 + 3 * (k * r3))); [field; auto|].
  transitivity (- (u * u * (u * u) * (k * (k * k))) / ((k - r) * ((k - r) * (k - r)))).
  - rewrite <- Y. toF_eq. field. auto.
  - unfold u3, k3. toF_eq. field. auto.
Qed.
End D3.

(** ** Degrees 2 and 4 *)
Lemma phi2_negx k q : phi2x (- k) (negx F q) = phi2x k q.
Proof.
  destruct q as [|x]; [reflexivity|]. cbn [negx phi2x]. destruct (kdec x k) as [->|N].
  - destruct (kdec (- k) (- k)); [reflexivity|contradiction].
  - destruct (kdec (- x) (- k)) as [E|N']; [exfalso; apply N; transitivity (- - x); [ring|rewrite E; ring]|]. f_equal. toF_eq.
    assert (x - k <> 0) by (apply (sub_nz F); auto). assert (- x - - k <> 0) by (apply (sub_nz F); auto). field. auto.
Qed.
Lemma negx_negx q : negx F (negx F q) = q.
Proof. destruct q as [|x]; [reflexivity|]. cbn. f_equal. ring. Qed.
Lemma negx_isox q : negx F q = isox 0 (- (1)) q.
Proof. destruct q as [|x]; [reflexivity|]. cbn. f_equal. toF_eq. field. apply (neg_nz F), (one_nz F). Qed.
(** The step of degree 2: the same up to sign. *)
Lemma iso2_step A B r u m m' : A * A <> 4 -> iso_to A B r u -> ker2 A m -> ker2 B m' -> m' = (m - r) / u ->
  (A2 m' = A2 m /\ forall q, phi2x m' (isox r u q) = phi2x m q) \/ (A2 m' = - A2 m /\ forall q, phi2x m' (isox r u q) = negx F (phi2x m q)).
Proof.
  intros HA HI Hm Hm' Em. destruct (ker2_rel F A m HA Hm) as (Nm & Rm & N1). pose proof HI as (Nu & H1 & H2 & H3). destruct (kdec r 0) as [Er|Nr].
  - left. rewrite Er in *. destruct (iso_r0 A B u HI) as [E _]. assert (E' : m' = u * m). { rewrite Em. transitivity (u * u * m / u); [rewrite E; field; auto|field; auto]. }
    split. { unfold A2. rewrite E'. transitivity (2 - 4 * (u * u * (m * m))); [ring|]. rewrite E. ring. }
    intros [|x]; [reflexivity|]. cbn [isox phi2x]. assert (Ex : (x - 0) / u = u * x). { transitivity (u * u * x / u); [rewrite E; field; auto|field; auto]. }
    rewrite Ex, E'. destruct (kdec x m) as [->|N].
    + destruct (kdec (u * m) (u * m)); [reflexivity|contradiction].
    + assert (N' : x - m <> 0) by (apply (sub_nz F); auto). destruct (kdec (u * x) (u * m)) as [X|NX].
      { exfalso. apply N. apply (mul_cancel F) with u; [auto|]. transitivity (u * x); [ring|]. rewrite X. ring. }
      f_equal. transitivity (u * x * (u * u * (m * x) - 1) / (u * x - u * m)); [f_equal; ring|]. rewrite E.
      assert (ND : u * x - u * m <> 0) by (apply (sub_nz F); auto). toF_eq. field. auto.
  - right. destruct (iso_r A B r u HI Nr) as [E1 E2].
    assert (ER : m * r = 1).
    { destruct (other_root F A m r Nm) as [X|[X|[X _]]]; auto; [apply two_tors, Hm|contradiction|]. exfalso. destruct Hm' as [N _]. apply N. rewrite Em, X. field. auto. }
    assert (E' : m' = - (u * m)).
    { rewrite Em. apply (mul_cancel F) with (u * r); [now apply (mul_nz F)|]. transitivity (m * r - r * r); [field; auto|]. rewrite ER.
      transitivity (- (u * u * (m * r))); [rewrite ER, E2; ring|ring]. }
    assert (Em2 : m' * m' = 1 - m * m).
    { rewrite E'. transitivity (u * u * (m * m)); [ring|]. rewrite E2. transitivity (m * r * (m * r) - m * m); [ring|]. rewrite ER. ring. }
    split. { unfold A2. rewrite Em2. ring. }
    intros [|x]; [reflexivity|]. cbn [isox phi2x]. destruct (kdec x m) as [->|N].
    + destruct (kdec ((m - r) / u) m') as [|X]; [reflexivity|]. exfalso. apply X. auto.
    + assert (N' : x - m <> 0) by (apply (sub_nz F); auto). destruct (kdec ((x - r) / u) m') as [X|NX].
      { exfalso. apply N. apply (sub_eq F). transitivity (((x - r) / u - (m - r) / u) * u); [field; auto|]. rewrite X, Em. ring. }
      cbn [negx]. f_equal.
      assert (D1 : (x - r) / u - m' = (x - m) / u) by (rewrite Em; toF_eq; field; auto).
      assert (D2 : m' * ((x - r) / u) - 1 = - (m * x)).
      { rewrite E'. transitivity (m * r - 1 - m * x); [field; auto|]. rewrite ER. ring. }
      rewrite D1, D2. transitivity (- ((m * (x * x) - m * r * x) / (x - m))); [field; auto|]. rewrite ER. toF_eq. field. auto.
Qed.
(** The step of degree 4: exactly the same. *)
Lemma iso4_step A B r u k k' m : A * A <> 4 -> B * B <> 4 -> iso_to A B r u -> m <> 0 -> dblx A (XF k) = XF m -> dblx A (XF m) = XInf ->
  (m - r) / u <> 0 -> k' = (k - r) / u -> A4 k' = A4 k /\ forall q, phi4x k' (isox r u q) = phi4x k q.
Proof.
  intros HA HB HI Nm D1 D2 Nm' ->. set (m' := (m - r) / u) in *. set (k' := (k - r) / u).
  assert (D1' : dblx B (XF k') = XF m').
  { change (XF k') with (isox r u (XF k)). rewrite <- (isox_dblx F two A B r u HI HA HB), D1. reflexivity. }
  assert (D2' : dblx B (XF m') = XInf).
  { change (XF m') with (isox r u (XF m)). rewrite <- (isox_dblx F two A B r u HI HA HB), D2. reflexivity. }
  pose proof (phi2_k F two A k m HA Nm D1 D2) as K1. pose proof (phi2_k F two B k' m' HB Nm' D1' D2') as K2. change (XF k') with (isox r u (XF k)) in K2.
  assert (SG : forall q, phi4x k q = negx F (phi2x (k * k) (phi2x m q))) by (intros; apply (phi4_split F two A k m HA Nm D1 D2)).
  assert (SG' : forall q, phi4x k' q = negx F (phi2x (k' * k') (phi2x m' q))) by (intros; apply (phi4_split F two B k' m' HB Nm' D1' D2')).
  destruct (iso2_step A B r u m m' HA HI (conj Nm D2) (conj Nm' D2') eq_refl) as [[_ X2]|[_ X2]].
  - rewrite X2, K1 in K2. assert (E : k * k = k' * k') by congruence. split; [rewrite !A4_A2, E; reflexivity|].
    intros q. now rewrite SG, SG', X2, E.
  - rewrite X2, K1 in K2. cbn [negx] in K2. assert (E : k' * k' = - (k * k)) by congruence. split.
    + rewrite !A4_A2. unfold A2. rewrite E. ring.
    + intros q. now rewrite SG, SG', X2, E, phi2_negx.
Qed.

(** ** Automorphisms *)
Definition special A : Prop := jinv A 1 = 0 \/ jinv A 1 = 4 * 4 * 4 * (3 * 3 * 3).
Lemma special_iso A B r u : A * A <> 4 -> B * B <> 4 -> iso_to A B r u -> special B -> special A.
Proof. intros HA HB HI. unfold special. now rewrite (iso_j F A B r u HA HB HI). Qed.
Lemma jinv_sq A c d : d <> 0 -> d * (A * A) = c -> c <> 4 * d -> jinv A 1 = 4 * 4 * 4 * 4 * ((c - 3 * d) * (c - 3 * d) * (c - 3 * d)) / (d * d * (c - 4 * d)).
Proof.
  intros Nd E N. unfold jinv. assert (E' : A * A = c / d). { rewrite <- E. toF_eq. field. auto. } rewrite E'.
  assert (c - 4 * d <> 0) by (apply (sub_nz F); auto). assert (NN : c / d - 4 * (1 * 1) <> 0).
  { intros X. apply N. apply (sub_eq F). transitivity ((c / d - 4 * (1 * 1)) * d); [toF_eq; field; auto|]. rewrite X. ring. }
  pose proof (one_nz F). toF_eq. field. repeat split; auto.
Qed.
Lemma auto_trivial A r u : A * A <> 4 -> ~ special A -> iso_to A A r u -> r = 0 /\ u = 1.
Proof.
  intros HA NS HI. pose proof HI as (Nu & H1 & H2 & H3). pose proof (four_nz F two) as N4. pose proof (one_nz F) as NO. destruct (kdec r 0) as [Er|Nr].
  - split; [auto|]. rewrite Er in HI. destruct (iso_r0 A A u HI) as [E EA]. destruct (sqr_pm F u 1) as [X|X]; [rewrite E; ring|auto|]. exfalso. apply NS. right.
    assert (E0 : A * A = 0).
    { apply (mul_cancel F) with 2; [auto|]. transitivity (A * (A - u * A)); [rewrite X; ring|]. rewrite <- EA. ring. }
    rewrite (jinv_sq A 0 1); [|auto|rewrite E0; ring|intros D; apply N4; transitivity (4 * 1 : F); [ring|rewrite <- D; ring]]. toF_eq. field. exact (neg_nz F _ N4).
  - exfalso. apply NS. destruct (iso_r A A r u HI Nr) as [E1 E2]. set (w := r * r) in *.
    assert (EA : A * r = - (w + 1)). { transitivity (w + A * r + 1 - w - 1); [ring|]. rewrite E1. ring. }
    assert (EW : w * (A * A) = (w + 1) * (w + 1)). { unfold w at 1. transitivity (A * r * (A * r)); [ring|]. rewrite EA. ring. }
    assert (E3 : u * A * r = 2 * w - 1). { rewrite H3. transitivity (3 * w + A * r); [unfold w; ring|]. rewrite EA. ring. }
    assert (Nw : w <> 0) by (unfold w; now apply (mul_nz F)).
    assert (EC : (w - 2) * (w * w - w + 1) = 0).
    { transitivity ((w - 1) * ((w + 1) * (w + 1)) - (2 * w - 1) * (2 * w - 1)); [ring|]. rewrite <- EW, <- E3. rewrite <- E2. unfold w. ring. }
    apply (mul_z F) in EC as [X|X].
    + right. apply (sub_eq F) in X. rewrite X in EW. rewrite (jinv_sq A (3 * 3) 2); [|auto|rewrite EW; ring|intros D; apply NO; transitivity (3 * 3 - 4 * 2 : F); [ring|rewrite D; ring]].
      toF_eq. field. auto.
    + left. rewrite (jinv_sq A (3 * w) w); [|auto| |].
      * assert (Nx : 3 * w - 4 * w <> 0) by (intros D; apply Nw; transitivity (- (3 * w - 4 * w)); [ring|rewrite D; ring]). transitivity (0 / (w * w * (3 * w - 4 * w))); [f_equal; ring|]. field. repeat split; auto.
      * rewrite EW. transitivity (w * w - w + 1 + 3 * w); [ring|]. rewrite X. ring.
      * intros D. apply Nw. transitivity (4 * w - 3 * w); [ring|]. rewrite D. ring.
Qed.
Lemma iso_unique A B r u r' u' : A * A <> 4 -> ~ special A -> iso_to A B r u -> iso_to A B r' u' -> r' = r /\ u' = u.
Proof.
  intros HA NS H1 H2. pose proof (iso_compose F A B A _ _ _ _ H1 (iso_inverse F A B r' u' H2)) as H.
  destruct (auto_trivial A _ _ HA NS H) as [X1 X2]. destruct H1 as (Nu & _), H2 as (Nu' & _).
  assert (E : u' = u). { transitivity (u' * (u * (1 / u'))); [rewrite X2; ring|field; auto]. }
  split; [|auto]. subst u'. symmetry. apply (sub_eq F). transitivity (u * (- r' / u) + r); [field; auto|exact X1].
Qed.
End IS.
