(** Chains of isogenies and isomorphisms of the domain; the commuting square of a 2^n-isogeny (with the choice of model) and
    a 3^h-isogeny, with the kernels of the duals. *)
From Coq Require Import Field.
From Verif Require Import Base Out Params Ops Ec Models Fld FieldOps CurveSpec IsogSpec ModelSpec XSpec WalkSpec FldCurve GroupP MultP IsoP FldIsog FldModels
  XLine XIso Strategy XChain CheckP XIsog WalkP SquareP KumP GridP IsoStepP.
Set Bullet Behavior "Strict Subproofs".

Section IC.
Variable F : fld.
Hypothesis two : (kadd k1 k1 : F) <> k0.
Hypothesis three : (kadd k1 (kadd k1 k1) : F) <> k0.
Local Open Scope fld_scope.
Definition kth18 := kth F.
Add Field KF18 : kth18.
Ltac toF_eq := match goal with |- ?a = ?b => change (@eq (K F) a b) end.
Implicit Types (A B k m x t u r : F) (p q s d : xl F) (f g : xl F -> xl F).
Local Notation dm T := (T F (k0 : F) (fun x : F => x) (fun _ _ : F => false) (fun _ : F => @nil Z) (fun _ : list Z => (k0 : F)) (fun _ : tape => @NoTape (F * tape))).
Local Notation dn T := (T F (fun x : F => x) (fun _ _ : F => false) (fun _ : F => @nil Z) (fun _ : list Z => (k0 : F)) (fun _ : tape => @NoTape (F * tape))).
Notation ord4 := (ord4 F). Notation ord3 := (ord3 F). Notation dual := (dual F).
Notation C3 := (C3 F). Notation C2 := (C2 F). Notation C4 := (C4 F). Notation G2 := (G2 F). Notation xhom := (xhom F).

(** d generates the kernel of the dual of the last step. *)
Definition D3 n A q d : Prop := exists A1 k, chain3 (n - 1) A (tplx A q) q = Some (A1, XF k) /\ d = dual k.
Lemma D3_1 A k d : D3 1 A (XF k) d <-> d = dual k.
Proof. unfold D3. cbn [chain3 Nat.sub]. split; [intros (A1 & k1 & E & ->); congruence|]. intros ->. eauto. Qed.
Lemma D3_S h A q t d : A * A <> 4 -> Nat.iter (S h) (tplx A) q = XF t -> ker3 A t -> (D3 (S (S h)) A q d <-> D3 (S h) (A3 A t) (phi3x t q) d).
Proof.
  intros HA Et Ht. unfold D3. replace (S (S h) - 1)%nat with (S h) by lia. replace (S h - 1)%nat with h by lia.
  assert (HT : Nat.iter h (tplx A) (tplx A q) = XF t). { rewrite <- Et. replace (S h) with (h + 1)%nat by lia. rewrite iter_plus. reflexivity. }
  cbn [chain3]. rewrite HT, (dm phi3_tplx two A HA t Ht). reflexivity.
Qed.
Lemma D3_fun n A q d d' : D3 n A q d -> D3 n A q d' -> d = d'.
Proof. intros (A1 & k & E & ->) (A1' & k' & E' & ->). congruence. Qed.

(** ** Degree 3^n and an isomorphism of the domain *)
Lemma isox_tpl n A B r u q : iso_to A B r u -> A * A <> 4 -> B * B <> 4 -> isox r u (Nat.iter n (tplx A) q) = Nat.iter n (tplx B) (isox r u q).
Proof. intros HI HA HB. induction n as [|n IH]; [reflexivity|]. rewrite !iter_S. rewrite (dm isox_tplx two A B r u HI HA HB), IH. reflexivity. Qed.
Lemma ker3_iso A B r u t : iso_to A B r u -> A * A <> 4 -> B * B <> 4 -> ker3 A t -> ker3 B ((t - r) / u).
Proof. intros HI HA HB Ht. unfold ker3 in *. change (XF ((t - r) / u)) with (isox r u (XF t)). rewrite <- (dm isox_tplx two A B r u HI HA HB), Ht. reflexivity. Qed.
Lemma C3_iso n : forall A B r u p Ap g, A * A <> 4 -> B * B <> 4 -> iso_to A B r u -> (n = 0%nat \/ ord3 n A p) -> C3 n A p Ap g ->
  exists Bp r' u' gB, C3 n B (isox r u p) Bp gB /\ iso_to Ap Bp r' u' /\ (forall q, gB (isox r u q) = isox r' u' (g q)) /\
    forall d, (1 <= n)%nat -> D3 n A p d -> D3 n B (isox r u p) (isox r' u' d).
Proof.
  induction n as [|n IH]; intros A B r u p Ap g HA HB HI Ho Hc.
  { exists B, r, u, (fun q => q). split; [intros s; reflexivity|]. assert (EA : Ap = A) by (specialize (Hc XInf); cbn in Hc; congruence). subst Ap.
    split; [auto|]. split; [|intros; lia]. intros q. specialize (Hc q). cbn in Hc. congruence. }
  destruct Ho as [|Ho]; [discriminate|]. destruct (dn ord3_S n A p Ho) as (t & Et & Ht).
  pose proof (dm cod3 two A HA t Ht) as HA3. pose proof (ker3_iso A B r u t HI HA HB Ht) as Ht'. set (t' := (t - r) / u) in *.
  pose proof (dm cod3 two B HB t' Ht') as HB3.
  assert (Ho' : n = 0%nat \/ ord3 n (A3 A t) (phi3x t p)).
  { destruct n as [|n]; [auto|right]. apply (dm next3 two A n p t HA Ho Et Ht). }
  assert (Et' : Nat.iter n (tplx B) (isox r u p) = XF t') by (rewrite <- (isox_tpl n A B r u p HI HA HB), Et; reflexivity).
  (* all values r are obtained as images in the induction hypothesis *)
  set (c3 := fun q => match chain3 n (A3 A t) (phi3x t p) q with Some (_, y) => y | None => XInf end).
  assert (HAp : forall q, chain3 n (A3 A t) (phi3x t p) q = Some (Ap, c3 q)).
  { intros q. pose proof (Hc XInf) as E. cbn [chain3] in E. rewrite Et in E. destruct (chain3_cod F n _ _ _ q _ _ E) as [s' Es]. unfold c3. rewrite Es. reflexivity. }
  assert (Hg : forall q, g q = c3 (phi3x t q)).
  { intros q. pose proof (Hc q) as E. cbn [chain3] in E. rewrite Et, HAp in E. congruence. }
  pose proof (cod3_iso F two A B r u t HA HI Ht) as HI3. pose proof (phi3_iso F two A B r u t HA HI Ht) as Hph. pose proof (dual_iso F two three A B r u t HA HI Ht) as Hdu.
  change (k3 F r u t) with t' in *. set (r1 := r3 F r u t) in *. set (u1 := u3 F r u t) in *.
  destruct (IH _ _ r1 u1 (phi3x t p) Ap c3 HA3 HB3 HI3 Ho' HAp) as (Bp & r' & u' & gB & I1 & I2 & I3 & I4).
  exists Bp, r', u', (fun q => gB (phi3x t' q)). split.
  { intros s. cbn [chain3]. rewrite Et', Hph. apply I1. }
  split; [auto|]. split; [intros q; rewrite Hph, Hg; apply I3|].
  intros d _ HD. destruct n as [|n].
  - change (Nat.iter 0 (tplx A) p) with p in Et. change (Nat.iter 0 (tplx B) (isox r u p)) with (isox r u p) in Et'. rewrite Et'. rewrite Et in HD. apply D3_1 in HD. apply D3_1. subst d.
    rewrite <- Hdu. pose proof (I3 (dual t)) as X. pose proof (I1 (isox r1 u1 (dual t))) as Y. unfold chain3 in Y. pose proof (HAp (dual t)) as Z. unfold chain3 in Z.
    assert (Y' : isox r1 u1 (dual t) = gB (isox r1 u1 (dual t))) by congruence. assert (Z' : dual t = c3 (dual t)) by congruence. rewrite Y', X, <- Z'. reflexivity.
  - apply (D3_S n A p t d HA Et Ht) in HD. apply (D3_S n B (isox r u p) t' _ HB Et' Ht'). rewrite Hph. apply I4; [lia|auto].
Qed.

(** ** Degree 2^n, n >= 2, and an isomorphism of the domain: the same codomain and the same map *)
Lemma iter_iso n A B r u q : iso_to A B r u -> A * A <> 4 -> B * B <> 4 -> Nat.iter n (dblx B) (isox r u q) = isox r u (Nat.iter n (dblx A) q).
Proof. intros. symmetry. now apply (isox_iter F two A B r u). Qed.
Lemma chain4_iso n A B r u q s : A * A <> 4 -> B * B <> 4 -> iso_to A B r u -> ord4 (S n) A q -> ord4 (S n) B (isox r u q) ->
  chain4 (S n) B (isox r u q) (isox r u s) = chain4 (S n) A q s.
Proof.
  intros HA HB HI Ho Ho'. destruct (dn ord4_S _ _ _ Ho) as (k & m & Ek & Nm & E1 & E2). destruct (dn ord4_S _ _ _ Ho') as (k' & m' & Ek' & Nm' & E1' & E2').
  cbn [chain4]. rewrite Ek, Ek'. rewrite (iter_iso _ A B r u q HI HA HB), Ek in Ek'. cbn [isox] in Ek'. assert (K : k' = (k - r) / u) by congruence.
  assert (M : m' = (m - r) / u).
  { rewrite K in E1'. change (XF ((k - r) / u)) with (isox r u (XF k)) in E1'. rewrite <- (isox_dblx F two A B r u HI HA HB), E1 in E1'. cbn [isox] in E1'. congruence. }
  rewrite M in Nm'. destruct (iso4_step F two A B r u k k' m HA HB HI Nm E1 E2 Nm' K) as [X1 X2]. rewrite X1, !X2. reflexivity.
Qed.
Lemma neg_iso A : iso_to A (- A) 0 (- (1)).
Proof. split; [apply (neg_nz F), (one_nz F)|]. unfold fx. repeat split; toF_eq; ring. Qed.
Lemma neg_ns A : A * A <> 4 -> - A * - A <> 4. Proof. intros H E. apply H. rewrite <- E. ring. Qed.
Lemma G2_ord4 n A q : (2 <= n)%nat -> Nat.odd n = false -> G2 n A q -> ord4 (n / 2) A q.
Proof.
  intros Hn Eo (_ & m & [Nm Hm] & E). pose proof (half n) as Hh. rewrite Eo in Hh. exists m. replace (2 * (n / 2) - 1)%nat with (n - 1)%nat by lia. auto.
Qed.
Lemma chain2_iso n A B r u q s : (2 <= n)%nat -> A * A <> 4 -> B * B <> 4 -> iso_to A B r u -> G2 n A q -> G2 n B (isox r u q) ->
  chain2 n B (isox r u q) (isox r u s) = chain2 n A q s.
Proof.
  intros Hn HA HB HI HG HG'. pose proof (half n) as Hh. unfold chain2. destruct (Nat.odd n) eqn:Eo.
  - pose proof HG as (_ & m & Hm & Em). pose proof HG' as (_ & m' & Hm' & Em'). rewrite Em, Em'.
    assert (EM : m' = (m - r) / u). { rewrite (iter_iso _ A B r u q HI HA HB), Em in Em'. cbn [isox] in Em'. congruence. }
    pose proof (cod2 F two A HA m Hm) as HA2. pose proof (cod2 F two B HB m' Hm') as HB2.
    destruct (n / 2)%nat as [|h] eqn:Ed; [exfalso; lia|].
    assert (O1 : ord4 (S h) (A2 m) (phi2x m q)). { apply (dm next2 two A (S h) q m HA); [lia| |exact Hm]. replace (2 * S h)%nat with (n - 1)%nat by lia. exact Em. }
    assert (O2 : ord4 (S h) (A2 m') (phi2x m' (isox r u q))). { apply (dm next2 two B (S h) (isox r u q) m' HB); [lia| |exact Hm']. replace (2 * S h)%nat with (n - 1)%nat by lia. exact Em'. }
    destruct (iso2_step F A B r u m m' HA HI Hm Hm' EM) as [[X1 X2]|[X1 X2]]; rewrite X1, !X2 in *; [reflexivity|].
    rewrite !negx_isox in *. apply chain4_iso; auto. apply neg_iso.
  - destruct (n / 2)%nat as [|h] eqn:Ed; [exfalso; lia|]. apply chain4_iso; auto; rewrite <- Ed; now apply G2_ord4.
Qed.

(** ** The dual of the 3-step under the isogeny of degree 2^n *)
Lemma neg_dual k : k <> 0 -> negx F (dual k) = dual (- k).
Proof. intros N. unfold IsoStepP.dual. cbn. f_equal. toF_eq. field. pose proof (neg_nz F k N). auto. Qed.
Lemma ker3_dual A t : A * A <> 4 -> ker3 A t -> ker3 (A3 A t) (- (1) / (3 * t)).
Proof.
  intros HA Ht. destruct (ker3_rel F two A t HA Ht) as (Nt & E & _). apply ker3_div. unfold div3 in *.
  apply (mul_cancel F) with (3 * 3 * 3 * (t * t * (t * t))); [repeat apply (mul_nz F); auto|].
  transitivity (3 * (t * t * (t * t)) + 4 * (A * (t * t * t)) + 2 * (3 * (t * t)) - 1 - (3 * (t * t * (t * t)) + 4 * (A * (t * t * t)) + 2 * (3 * (t * t)) - 1) * 2); [|rewrite E; ring].
  unfold A3. toF_eq. field. auto.
Qed.
Lemma dual23 A m t : A * A <> 4 -> ker2 A m -> ker3 A t -> phi2x (m23 F m t) (dual t) = dual (t23 F m t).
Proof.
  intros HA Hm Ht. pose proof (rel23 F two A m t HA Hm Ht) as R. pose proof (b_nz F two A m t HA Hm Ht) as Nb. pose proof (a_nz F two A m t HA Hm Ht) as Na.
  destruct (ker2_rel F A m HA Hm) as (Nm & _ & _). destruct (ker3_rel F two A t HA Ht) as (Nt & _ & _).
  pose proof (b_nz F two _ _ _ (dm cod3 two A HA t Ht) (ker2_m F two A m t HA Hm Ht) (ker3_dual A t HA Ht)) as Nd.
  unfold IsoStepP.dual. cbn [phi2x]. destruct (kdec (- (1) / (3 * t)) (m23 F m t)) as [E|N]; [exfalso; apply Nd; rewrite <- E; ring|]. f_equal.
  assert (Nd' : - (1) / (3 * t) - m23 F m t <> 0) by (apply (sub_nz F); auto). clear Nd N.
  assert (Y : 3 * t23 F m t * (- (1) / (3 * t) * (m23 F m t * (- (1) / (3 * t)) - 1)) + (- (1) / (3 * t) - m23 F m t) = 0).
  { unfold m23, t23.
    transitivity ((3 * (t * t * (t * t)) * m - 4 * ((m * m + 1) * (t * t * t)) + 2 * (3 * (t * t)) * m - m) * (m * m - 1) / (3 * t * ((m - t) * ((m - t) * (m - t))))).
    - toF_eq. field. auto.
    - rewrite R. field. auto. }
  destruct (ker3_rel F two _ _ (cod2 F two A HA m Hm) (ker3_t F two A m t HA Hm Ht)) as (Nt' & _ & _).
  set (d := - (1) / (3 * t)) in *. set (m' := m23 F m t) in *. set (t' := t23 F m t) in *.
  apply (mul_cancel F) with (3 * t' * (d - m')); [repeat apply (mul_nz F); auto|].
  transitivity (3 * t' * (d * (m' * d - 1))); [toF_eq; field; auto|].
  transitivity (3 * t' * (d * (m' * d - 1)) + (d - m') - (d - m')); [ring|]. rewrite Y. toF_eq. field. auto.
Qed.
Lemma dual34 A k t t' k' : A * A <> 4 -> ker4 A k -> ker3 A t -> phi4x k (XF t) = XF t' -> phi3x t (XF k) = XF k' -> phi4x k' (dual t) = dual t'.
Proof.
  intros HA (m & Nm & E1 & E2) Ht Et Ek.
  pose proof (ker2_m4 F A m Nm E2) as Hm. pose proof (ker2_kk F two A k m HA Nm E1 E2) as Hkk. pose proof (cod2 F two A HA m Hm) as HA1.
  pose proof (ker3_t F two A m t HA Hm Ht) as Ht1. pose proof (dm cod3 two A HA t Ht) as HA3. set (m' := m23 F m t). set (t1 := t23 F m t) in *.
  pose proof (ker2_m F two A m t HA Hm Ht) as Hm'. fold m' in Hm'.
  assert (E1' : dblx (A3 A t) (XF k') = XF m') by (rewrite <- Ek, <- (dm phi3_dblx two A HA t Ht), E1; apply (phi3_m F two A m t HA Hm Ht)).
  rewrite (phi4_split F two (A3 A t) k' m' HA3 (proj1 Hm') E1' (proj2 Hm')). unfold m'. rewrite (dual23 A m t HA Hm Ht). fold t1.
  assert (EK : k' * k' = m23 F (k * k) t1).
  { pose proof (phi2_k F two (A3 A t) k' m' HA3 (proj1 Hm') E1' (proj2 Hm')) as X. rewrite <- Ek in X. unfold m' in X. rewrite (sq23 F two A m t HA Hm Ht) in X.
    rewrite (phi2_k F two A k m HA Nm E1 E2) in X. fold t1 in X. rewrite (phi3_m F two (A2 m) (k * k) t1 HA1 Hkk Ht1) in X. congruence. }
  rewrite EK, (dual23 (A2 m) (k * k) t1 HA1 Hkk Ht1).
  destruct (ker3_rel F two _ _ (cod2 F two _ HA1 _ Hkk) (ker3_t F two _ (k * k) t1 HA1 Hkk Ht1)) as (Nt' & _ & _).
  rewrite (neg_dual _ Nt'). f_equal. rewrite (phi4_split F two A k m HA Nm E1 E2), (phi2_t F two A m t HA Hm Ht) in Et. fold t1 in Et.
  rewrite (phi2_t F two (A2 m) (k * k) t1 HA1 Hkk Ht1) in Et. cbn [negx] in Et. congruence.
Qed.
Lemma C4_dual n : forall A q t A1 f t1 A' f', A * A <> 4 -> (n = 0%nat \/ ord4 n A q) -> ker3 A t -> C4 n A q A1 f -> f (XF t) = XF t1 ->
  C4 n (A3 A t) (phi3x t q) A' f' -> f' (dual t) = dual t1.
Proof.
  induction n as [|n IH]; intros A q t A1 f t1 A' f' HA Ho Ht Hf E Hf'.
  { pose proof (Hf (XF t)) as X. pose proof (Hf' (dual t)) as Y. unfold chain4 in X, Y. assert (t = t1) by congruence. subst t1. congruence. }
  destruct Ho as [|Ho]; [discriminate|].
  destruct (dn ord4_S n A q Ho) as (k & m & Ek & Nm & E1 & E2).
  assert (Hk : ker4 A k) by (exists m; auto). pose proof (cod4 F two A HA k m Nm E1 E2) as HA4.
  assert (Ho' : n = 0%nat \/ ord4 n (A4 k) (phi4x k q)).
  { destruct n as [|n]; [auto|right]. apply (dm next4 two A n q k HA Ho Ek). }
  destruct (sq34 F two A k t HA Hk Ht) as (t' & k' & S1 & S2 & S3 & S4 & S5 & S6).
  destruct (col4 F two n _ _ HA4 Ho') as (B1 & g & _ & Hc & _ & _ & Ht0).
  destruct (Ht0 t' S3) as (t2 & g' & T1 & T2 & T3 & T4).
  assert (X1 : forall y, f y = g (phi4x k y)). { intros y. pose proof (Hf y) as X. cbn [chain4] in X. rewrite Ek, Hc in X. congruence. }
  assert (X2 : forall y, f' y = g' (phi4x k' y)).
  { intros y. pose proof (Hf' y) as X. cbn [chain4] in X. rewrite <- (xhom_dbl F A _ _ _ _ (xhom3 F two A t HA Ht)), Ek, S2, S5, S6, T3 in X. congruence. }
  rewrite X2, (dual34 A k t t' k' HA Hk Ht S1 S2). rewrite X1, S1, T1 in E. injection E as ->.
  apply (IH (A4 k) (phi4x k q) t' B1 g t1 _ g' HA4 Ho' S3 Hc T1 T3).
Qed.
Lemma C2_dual n A q t A1 f t1 A' f' : A * A <> 4 -> G2 n A q -> ker3 A t -> C2 n A q A1 f -> f (XF t) = XF t1 ->
  C2 n (A3 A t) (phi3x t q) A' f' -> f' (dual t) = dual t1.
Proof.
  intros HA HG Ht Hf E Hf'. pose proof (half n) as Hh. pose proof HG as (Hp & m & Hm & Em). unfold GridP.C2, chain2 in Hf, Hf'. destruct (Nat.odd n) eqn:Eo.
  - rewrite <- (xhom_dbl F A _ _ _ _ (xhom3 F two A t HA Ht)), Em, (phi3_m F two A m t HA Hm Ht), (cod23 F two A m t HA Hm Ht), (sq23 F two A m t HA Hm Ht) in Hf'.
    rewrite Em in Hf. pose proof (cod2 F two A HA m Hm) as HA2.
    assert (Ho : (n / 2 = 0)%nat \/ ord4 (n / 2) (A2 m) (phi2x m q)).
    { destruct (n / 2)%nat as [|h]; [auto|right]. apply (dm next2 two A (S h) q m HA); [lia| |exact Hm].
      replace (2 * S h)%nat with (n - 1)%nat by lia. exact Em. }
    destruct (col4 F two (n / 2) _ _ HA2 Ho) as (B1 & g & H1 & Hc & Hhm & Hk0 & Ht0).
    pose proof (ker3_t F two A m t HA Hm Ht) as S3. destruct (Ht0 _ S3) as (t2 & g' & T1 & T2 & T3 & T4).
    assert (X1 : f (XF t) = g (phi2x m (XF t))). { pose proof (Hf (XF t)) as X. rewrite Hc in X. congruence. }
    assert (X2 : f' (dual t) = g' (phi2x (m23 F m t) (dual t))). { pose proof (Hf' (dual t)) as X. rewrite T3 in X. congruence. }
    rewrite X2, (dual23 A m t HA Hm Ht). rewrite X1, (phi2_t F two A m t HA Hm Ht), T1 in E. injection E as ->.
    apply (C4_dual (n / 2) (A2 m) (phi2x m q) (t23 F m t) B1 g t1 _ g' HA2 Ho S3 Hc T1 T3).
  - assert (Ho : (n / 2 = 0)%nat \/ ord4 (n / 2) A q).
    { right. exists m. split; [apply Hm|]. split; [|apply Hm]. replace (2 * (n / 2) - 1)%nat with (n - 1)%nat by lia. exact Em. }
    apply (C4_dual (n / 2) A q t A1 f t1 A' f' HA Ho Ht Hf E Hf').
Qed.
(** ** The square with the duals *)
Lemma grid_dual n h : forall A p q A1 f, A * A <> 4 -> G2 n A q -> C2 n A q A1 f -> (h = 0%nat \/ ord3 h A p) ->
  exists Ap g A' f' g', C3 h A p Ap g /\ C3 h A1 (f p) A' g' /\ C2 n Ap (g q) A' f' /\ (forall y, f' (g y) = g' (f y)) /\
    (h = 0%nat \/ ord3 h A1 (f p)) /\ forall d, (1 <= h)%nat -> D3 h A p d -> D3 h A1 (f p) (f' d).
Proof.
  induction h as [|h IH]; intros A p q A1 f HA HG Hf Ho.
  { exists A, (fun q => q), A1, f, (fun q => q). repeat split; auto; try (intros r; reflexivity). intros; lia. }
  destruct Ho as [|Ho]; [discriminate|]. destruct (dn ord3_S h A p Ho) as (t & Et & Ht).
  pose proof (dm cod3 two A HA t Ht) as HA3.
  assert (Ho' : h = 0%nat \/ ord3 h (A3 A t) (phi3x t p)).
  { destruct h as [|h]; [auto|right]. apply (dm next3 two A h p t HA Ho Et Ht). }
  destruct (col2 F two n A q HA HG) as (A1' & f0 & H1 & Hc & Hh & _ & Hs).
  assert (E0 : forall y, (A1', f0 y) = (A1, f y)) by (intros y; specialize (Hc y); rewrite Hf in Hc; congruence).
  assert (EA : A1' = A1) by (specialize (E0 XInf); congruence). subst A1'.
  assert (Ef : forall y, f0 y = f y) by (intros y; specialize (E0 y); congruence). clear E0.
  destruct (Hs t Ht) as (t1 & f1 & T1 & T2 & T3 & T4).
  destruct (IH (A3 A t) (phi3x t p) (phi3x t q) (A3 A1 t1) f1 HA3 (G2_phi3 F two n A q t HA Ht HG) T3 Ho') as (Ap & g & A' & f' & g' & I1 & I2 & I3 & I4 & I5 & I6).
  assert (Et1 : Nat.iter h (tplx A1) (f p) = XF t1) by (rewrite <- Ef, <- (xhom_tpl F A _ _ _ _ Hh), Et; exact T1).
  exists Ap, (fun y => g (phi3x t y)), A', f', (fun y => g' (phi3x t1 y)). split; [|split; [|split; [|split; [|split]]]].
  - intros y. cbn [chain3]. rewrite Et. apply I1.
  - intros y. cbn [chain3]. rewrite Et1, <- Ef, <- T4. apply I2.
  - exact I3.
  - intros y. rewrite I4, T4, Ef. reflexivity.
  - right. exists t1. replace (S h - 1)%nat with h by lia. auto.
  - intros d _ HD. destruct h as [|h].
    + change (p = XF t) in Et. change (f p = XF t1) in Et1. rewrite Et1. rewrite Et in HD. apply D3_1 in HD. apply D3_1. subst d.
      assert (EX : forall y, f' y = f1 y).
      { intros y. pose proof (I3 y) as X. assert (G1 : g (phi3x t q) = phi3x t q) by (pose proof (I1 (phi3x t q)) as Y; unfold chain3 in Y; congruence).
        assert (G3 : Ap = A3 A t) by (pose proof (I1 XInf) as Y; unfold chain3 in Y; congruence).
        rewrite G1, G3, T3 in X. congruence. }
      rewrite EX. rewrite Ef in T1. apply (C2_dual n A q t A1 f t1 _ f1 HA HG Ht Hf T1 T3).
    + apply (D3_S h A p t d HA Et Ht) in HD. apply (D3_S h A1 (f p) t1 _ H1 Et1 T2). rewrite <- Ef, <- T4. apply I6; [lia|auto].
Qed.

(** ** The image of a 2^n-isogeny determines 2^n times the argument *)
Lemma dblx3 A q : A * A <> 4 -> tplx A q = XInf -> dblx A q = q.
Proof.
  intros HA. destruct q as [|x]; [reflexivity|]. intros H. destruct (ker3_rel F two A x HA H) as (Nx & E & N1). unfold div3 in E. cbn.
  assert (Y : (x * x - 1) * (x * x - 1) = 4 * x * fx A x).
  { apply (sub_eq F). unfold fx. transitivity (- (3 * (x * x * (x * x)) + 4 * (A * (x * x * x)) + 2 * (3 * (x * x)) - 1)); [ring|]. rewrite E. ring. }
  destruct (kdec (fx A x) 0) as [Z|N].
  - exfalso. apply N1. apply (sub_eq F), (sqr_z F). rewrite Y, Z. ring.
  - f_equal. rewrite Y. toF_eq. field. pose proof (four_nz F two). auto.
Qed.
Lemma iter_dblx3 n A q : A * A <> 4 -> tplx A q = XInf -> Nat.iter n (dblx A) q = q.
Proof. intros HA H. induction n as [|n IH]; [reflexivity|]. rewrite iter_S, IH. now apply dblx3. Qed.
Definition undo2 m q : xl F := match q with XInf => XInf | XF w => if kdec w 0 then XInf else XF ((w + 1) * (w + 1) / (4 * m * w)) end.
Lemma undo2_ok A m q : A * A <> 4 -> ker2 A m -> dblx A q = undo2 m (phi2x m q).
Proof.
  intros HA Hm. destruct (ker2_rel F A m HA Hm) as (Nm & Em & N1). pose proof (four_nz F two) as N4.
  destruct q as [|x]; [reflexivity|]. cbn [dblx phi2x].
  assert (EF : m * fx A x = x * (x - m) * (m * x - 1)).
  { unfold fx. apply (sub_eq F). transitivity (x * x * (m * m + A * m + 1)); [ring|]. rewrite Em. ring. }
  destruct (kdec x m) as [->|N]; cbn [undo2].
  - destruct (kdec (fx A m) 0) as [|X]; [reflexivity|]. exfalso. apply X. apply (mul_cancel F) with m; [auto|]. transitivity (m * fx A m); [ring|]. rewrite EF. ring.
  - assert (Nx : x - m <> 0) by (apply (sub_nz F); auto). destruct (kdec (fx A x) 0) as [E0|N0]; destruct (kdec (x * (m * x - 1) / (x - m)) 0) as [E2|N2]; [reflexivity| | |].
    + exfalso. apply N2. transitivity (x * (x - m) * (m * x - 1) / ((x - m) * (x - m))); [field; auto|]. rewrite <- EF, E0. field. auto.
    + exfalso. apply N0. apply (mul_cancel F) with m; [auto|]. transitivity (m * fx A x); [ring|]. rewrite EF.
      transitivity (x * (m * x - 1) / (x - m) * ((x - m) * (x - m))); [field; auto|]. rewrite E2. ring.
    + f_equal. assert (EF' : fx A x = x * (x - m) * (m * x - 1) / m) by (rewrite <- EF; field; auto).
      assert (Na : x * (m * x - 1) <> 0). { intros X. apply N2. rewrite X. field. auto. }
      assert (Nb : x <> 0) by (intros X; apply Na; rewrite X; ring). assert (Nc : m * x - 1 <> 0) by (intros X; apply Na; rewrite X; ring).
      rewrite EF'. assert (W : x * (m * x - 1) / (x - m) + 1 = m * (x * x - 1) / (x - m)) by (toF_eq; field; auto). rewrite W.
      toF_eq. field. auto 10.
Qed.
Lemma phi4_det A k q s : A * A <> 4 -> ker4 A k -> phi4x k q = phi4x k s -> dblx A (dblx A q) = dblx A (dblx A s).
Proof.
  intros HA (m & Nm & E1 & E2) E. rewrite !(phi4_split F two A k m HA Nm E1 E2) in E.
  pose proof (ker2_m4 F A m Nm E2) as Hm. pose proof (ker2_kk F two A k m HA Nm E1 E2) as Hkk. pose proof (cod2 F two A HA m Hm) as HA1.
  apply (f_equal (negx F)) in E. rewrite !negx_negx in E. apply (f_equal (undo2 (k * k))) in E. rewrite <- !(undo2_ok (A2 m)) in E by auto.
  rewrite <- !(dm phi2_dblx two A HA m Hm) in E. apply (f_equal (undo2 m)) in E. rewrite <- !(undo2_ok A) in E by auto. exact E.
Qed.
Lemma C4_det n : forall A q A1 f (x y : xl F), A * A <> 4 -> (n = 0%nat \/ ord4 n A q) -> C4 n A q A1 f -> f x = f y -> Nat.iter (2 * n) (dblx A) x = Nat.iter (2 * n) (dblx A) y.
Proof.
  induction n as [|n IH]; intros A q A1 f x y HA Ho Hf E.
  { pose proof (Hf x) as X. pose proof (Hf y) as Y. unfold chain4 in X, Y. cbn. congruence. }
  destruct Ho as [|Ho]; [discriminate|].
  destruct (dn ord4_S n A q Ho) as (k & m & Ek & Nm & E1 & E2).
  assert (Hk : ker4 A k) by (exists m; auto). pose proof (cod4 F two A HA k m Nm E1 E2) as HA4.
  assert (Ho' : n = 0%nat \/ ord4 n (A4 k) (phi4x k q)).
  { destruct n as [|n]; [auto|right]. apply (dm next4 two A n q k HA Ho Ek). }
  destruct (col4 F two n _ _ HA4 Ho') as (B1 & g & _ & Hc & _ & _ & _).
  assert (X1 : forall y, f y = g (phi4x k y)). { intros z. pose proof (Hf z) as X. cbn [chain4] in X. rewrite Ek, Hc in X. congruence. }
  rewrite !X1 in E. pose proof (IH _ _ _ _ _ _ HA4 Ho' Hc E) as X.
  rewrite <- !(xhom_dbl F A _ _ _ _ (xhom4 F two A k HA Hk)) in X. apply (phi4_det A k _ _ HA Hk) in X.
  replace (2 * S n)%nat with (S (S (2 * n))) by lia. rewrite !iter_S. exact X.
Qed.
Lemma C2_det n A q A1 f (x y : xl F) : A * A <> 4 -> G2 n A q -> C2 n A q A1 f -> f x = f y -> Nat.iter n (dblx A) x = Nat.iter n (dblx A) y.
Proof.
  intros HA HG Hf E. pose proof (half n) as Hh. pose proof HG as (Hp & m & Hm & Em). unfold GridP.C2, chain2 in Hf. destruct (Nat.odd n) eqn:Eo.
  - rewrite Em in Hf. pose proof (cod2 F two A HA m Hm) as HA2.
    assert (Ho : (n / 2 = 0)%nat \/ ord4 (n / 2) (A2 m) (phi2x m q)).
    { destruct (n / 2)%nat as [|h]; [auto|right]. apply (dm next2 two A (S h) q m HA); [lia| |exact Hm].
      replace (2 * S h)%nat with (n - 1)%nat by lia. exact Em. }
    destruct (col4 F two (n / 2) _ _ HA2 Ho) as (B1 & g & _ & Hc & _ & _ & _).
    assert (X1 : forall y, f y = g (phi2x m y)). { intros z. pose proof (Hf z) as X. rewrite Hc in X. congruence. }
    rewrite !X1 in E. pose proof (C4_det _ _ _ _ _ _ _ HA2 Ho Hc E) as X. rewrite <- !(xhom_dbl F A _ _ _ _ (xhom2 F two A m HA Hm)) in X.
    apply (f_equal (undo2 m)) in X. rewrite <- !(undo2_ok A) in X by auto. rewrite <- !iter_S in X.
    assert (EN : S (2 * (n / 2)) = n) by (clear - Hh; lia). rewrite EN in X. exact X.
  - assert (Ho : (n / 2 = 0)%nat \/ ord4 (n / 2) A q).
    { right. exists m. split; [apply Hm|]. split; [|apply Hm]. replace (2 * (n / 2) - 1)%nat with (n - 1)%nat by lia. exact Em. }
    pose proof (C4_det _ _ _ _ _ x y HA Ho Hf E) as X. assert (EN : (2 * (n / 2) = n)%nat) by (clear - Hh; lia). rewrite EN in X. exact X.
Qed.

Section Cls.
Variable SS : F -> Prop.
Hypothesis HSS : isog_class SS.
Variable other : F -> F * F * F.
Hypothesis Hot : isos SS other.
Hypothesis Hor : forall A, SS A -> snd (fst (other A)) <> 0.
Variable n : nat.
Hypothesis Hn : (2 <= n)%nat.
Notation ns := (ss_ns F SS HSS).
Definition Q2 A q A1 f : Prop := forall s, quot2 other n A q s = Some (A1, f s).

Lemma quot2_model A q : SS A -> xord2 A n q -> exists B r u, iso_to A B r u /\ SS B /\ G2 n B (isox r u q) /\
  forall s, quot2 other n A q s = chain2 n B (isox r u q) (isox r u s).
Proof.
  intros HA Ho. assert (H1 : (1 <= n)%nat) by lia. apply (dm xord2_two A n q H1) in Ho as [O1 O2]. unfold quot2.
  set (T0 := Nat.iter (n - 1) (dblx A) q) in *. destruct T0 as [|x0] eqn:ET; [contradiction|].
  assert (HM : exists B t0 u0, (if kdec x0 0 then other A else (A, 0, 1)) = (B, t0, u0) /\ iso_to A B t0 u0 /\ SS B /\ (x0 - t0) / u0 <> 0).
  { destruct (kdec x0 0) as [->|N].
    - pose proof (Hot A HA) as HI. pose proof (Hor A HA) as HR. destruct (other A) as [[B t0] u0]. cbn in HR. exists B, t0, u0. split; [auto|]. split; [auto|].
      split; [apply (ss_iso HSS A B t0 u0); auto|]. intros E. pose proof HI as [Nu _]. apply HR. transitivity (- ((0 - t0) / u0 * u0)); [field; auto|rewrite E; ring].
    - exists A, 0, 1. split; [auto|]. split; [apply iso_refl|]. split; [auto|]. intros E. apply N. transitivity ((x0 - 0) / 1); [field; apply (one_nz F)|exact E]. }
  destruct HM as (B & t0 & u0 & EM & HI & HB & Nm). rewrite EM. exists B, t0, u0. split; [auto|]. split; [auto|]. split; [|reflexivity].
  split; [lia|]. exists ((x0 - t0) / u0). split; [split; [auto|]|].
  - change (XF ((x0 - t0) / u0)) with (isox t0 u0 (XF x0)). rewrite <- (isox_dblx F two A B t0 u0 HI (ns _ HA) (ns _ HB)), O2. reflexivity.
  - rewrite (iter_iso _ A B t0 u0 q HI (ns _ HA) (ns _ HB)). fold T0. rewrite ET. reflexivity.
Qed.
Lemma isox_comp r u r' u' q : u <> 0 -> u' <> 0 -> isox r' u' (isox r u q) = isox (u * r' + r) (u * u') q.
Proof. intros N N'. destruct q as [|x]; [reflexivity|]. cbn. f_equal. toF_eq. field. auto. Qed.
Lemma isox_inv r u q : u <> 0 -> isox (- r / u) (1 / u) (isox r u q) = q.
Proof.
  intros N. assert (N' : 1 / u <> 0). { intros E. apply (one_nz F). transitivity (1 / u * u); [field; auto|rewrite E; ring]. }
  destruct q as [|x]; [reflexivity|]. cbn. f_equal. toF_eq. field. pose proof (one_nz F). auto.
Qed.
Lemma isox_inv' r u q : u <> 0 -> isox r u (isox (- r / u) (1 / u) q) = q.
Proof.
  intros N. assert (N' : 1 / u <> 0). { intros E. apply (one_nz F). transitivity (1 / u * u); [field; auto|rewrite E; ring]. }
  destruct q as [|x]; [reflexivity|]. cbn. f_equal. toF_eq. field. pose proof (one_nz F). auto.
Qed.
Lemma isox_inj r u q q' : u <> 0 -> isox r u q = isox r u q' -> q = q'.
Proof. intros N E. rewrite <- (isox_inv r u q N), E. now apply isox_inv. Qed.
Lemma G2_xord A q : G2 n A q -> xord2 A n q.
Proof. intros (H1 & m & [Nm Hm] & E). apply (dm xord2_two A n q H1). rewrite E. split; [discriminate|auto]. Qed.
(** From any model the same as from the model itself. *)
Lemma quot2_any A B r u q s : SS A -> xord2 A n q -> SS B -> iso_to A B r u -> G2 n B (isox r u q) ->
  quot2 other n A q s = chain2 n B (isox r u q) (isox r u s).
Proof.
  intros HA Ho HB HI HG. destruct (quot2_model A q HA Ho) as (B' & r' & u' & HI' & HB' & HG' & E). rewrite E. symmetry.
  pose proof HI' as [Nu' _]. pose proof HI as [Nu _].
  pose proof (iso_compose F _ _ _ _ _ _ _ (iso_inverse F A B' r' u' HI') HI) as HC. pose proof HC as [Nc _].
  assert (N1 : 1 / u' <> 0). { intros X. apply (one_nz F). transitivity (1 / u' * u'); [field; auto|rewrite X; ring]. }
  assert (EX : forall y, isox (1 / u' * r + - r' / u') (1 / u' * u) (isox r' u' y) = isox r u y).
  { intros y. rewrite <- isox_comp by auto. now rewrite isox_inv. }
  pose proof (chain2_iso n B' B _ _ (isox r' u' q) (isox r' u' s) Hn (ns _ HB') (ns _ HB) HC HG') as X. rewrite !EX in X. now apply X.
Qed.
Lemma quot2_iso A B r u q s : SS A -> xord2 A n q -> iso_to A B r u -> quot2 other n B (isox r u q) (isox r u s) = quot2 other n A q s.
Proof.
  intros HA Ho HI. assert (HB : SS B) by (apply (ss_iso HSS A B r u); auto).
  assert (Ho' : xord2 B n (isox r u q)) by (apply (isox_ord F two A B r u HI (ns _ HA) (ns _ HB)); auto).
  destruct (quot2_model B (isox r u q) HB Ho') as (B' & r' & u' & HI' & HB' & HG' & E). rewrite E.
  pose proof HI as [Nu _]. pose proof HI' as [Nu' _]. rewrite !isox_comp in * by auto. symmetry.
  apply quot2_any; auto. eapply iso_compose; eauto.
Qed.
Lemma Q2_ex A q : SS A -> xord2 A n q -> exists A1 f, Q2 A q A1 f /\ SS A1.
Proof.
  intros HA Ho. destruct (quot2_model A q HA Ho) as (B & r & u & HI & HB & HG & E).
  destruct (col2 F two n B _ (ns _ HB) HG) as (A1 & f & _ & Hc & _). exists A1, (fun s => f (isox r u s)).
  assert (HQ : Q2 A q A1 (fun s => f (isox r u s))) by (intros s; rewrite E; apply Hc). split; [auto|].
  apply (quot2_ss F two SS HSS other Hot Hor n Hn A q XInf A1 _ HA Ho (HQ XInf)).
Qed.
Lemma Q2_inj3 A q A1 f (x y : xl F) : SS A -> xord2 A n q -> Q2 A q A1 f -> tplx A x = XInf -> tplx A y = XInf -> f x = f y -> x = y.
Proof.
  intros HA Ho HQ Tx Ty Exy. destruct (quot2_model A q HA Ho) as (B & r & u & HI & HB & HG & E). pose proof HI as [Nu _].
  destruct (col2 F two n B _ (ns _ HB) HG) as (A1' & f0 & _ & Hc & _).
  assert (EF : forall z, f z = f0 (isox r u z)) by (intros z; pose proof (HQ z) as X; rewrite E, Hc in X; congruence).
  rewrite !EF in Exy. pose proof (C2_det n B _ _ _ _ _ (ns _ HB) HG Hc Exy) as X.
  rewrite !(iter_iso n A B r u _ HI (ns _ HA) (ns _ HB)) in X. apply (isox_inj r u _ _ Nu) in X.
  rewrite !iter_dblx3 in X by (auto; apply ns; auto). exact X.
Qed.
Lemma Q2_tpl A q A1 f : SS A -> xord2 A n q -> Q2 A q A1 f -> forall y, f (tplx A y) = tplx A1 (f y).
Proof.
  intros HA Ho HQ y. destruct (quot2_model A q HA Ho) as (B & r & u & HI & HB & HG & E).
  destruct (col2 F two n B _ (ns _ HB) HG) as (A1' & f0 & _ & Hc & Hh & _).
  assert (EF : forall z, f z = f0 (isox r u z)) by (intros z; pose proof (HQ z) as X; rewrite E, Hc in X; congruence).
  assert (EA : A1' = A1) by (pose proof (HQ XInf) as X; rewrite E, Hc in X; congruence). subst A1'.
  rewrite !EF, (dm isox_tplx two A B r u HI (ns _ HA) (ns _ HB)). apply Hh.
Qed.
Lemma Q2_iter A q A1 f : SS A -> xord2 A n q -> Q2 A q A1 f -> forall j y, f (Nat.iter j (tplx A) y) = Nat.iter j (tplx A1) (f y).
Proof. intros HA Ho HQ j y. induction j as [|j IH]; [reflexivity|]. rewrite !iter_S, <- IH. now apply (Q2_tpl A q). Qed.
(** The square: the isogeny of degree 2^n on the right of one of degree 3^h. *)
Lemma Q2_grid h A p q A1 f : SS A -> xord2 A n q -> Q2 A q A1 f -> (1 <= h)%nat -> ord3 h A p ->
  exists Ap g A' f' g', C3 h A p Ap g /\ C3 h A1 (f p) A' g' /\ Q2 Ap (g q) A' f' /\ (forall y, f' (g y) = g' (f y)) /\
    SS Ap /\ SS A1 /\ ord3 h A1 (f p) /\ xord2 Ap n (g q) /\ (Nat.iter (n - 1) (dblx A) q <> XF 0 -> Nat.iter (n - 1) (dblx Ap) (g q) <> XF 0) /\
    forall d, D3 h A p d -> D3 h A1 (f p) (f' d).
Proof.
  intros HA Ho HQ Hh Hp. pose proof (quot2_ss F two SS HSS other Hot Hor n Hn A q XInf A1 _ HA Ho (HQ XInf)) as HA1.
  destruct (quot2_model A q HA Ho) as (B & r & u & HI & HB & HG & E). pose proof HI as [Nu _].
  destruct (row3 F two h A p (ns _ HA) (or_intror Hp)) as (Ap & g & _ & HC3 & HX & _ & HK2).
  assert (HAp : SS Ap) by (apply (chain3_ss F two SS HSS h A p XInf Ap _ HA (or_intror Hp) (HC3 XInf))).
  destruct (C3_iso h A B r u p Ap g (ns _ HA) (ns _ HB) HI (or_intror Hp) HC3) as (Bp & r' & u' & gB & J1 & J2 & J3 & J4).
  assert (HBp : SS Bp) by (apply (ss_iso HSS Ap Bp r' u'); auto).
  destruct (col2 F two n B _ (ns _ HB) HG) as (A1' & f0 & _ & Hc & _).
  assert (EF : forall z, f z = f0 (isox r u z)) by (intros z; pose proof (HQ z) as X; rewrite E, Hc in X; congruence).
  assert (EA : A1' = A1) by (pose proof (HQ XInf) as X; rewrite E, Hc in X; congruence). subst A1'.
  assert (HpB : ord3 h B (isox r u p)).
  { destruct Hp as (k & Ek & Hk). exists ((k - r) / u). rewrite <- (isox_tpl _ A B r u p HI (ns _ HA) (ns _ HB)), Ek. split; [reflexivity|].
    exact (ker3_iso A B r u k HI (ns _ HA) (ns _ HB) Hk). }
  destruct (grid_dual n h B (isox r u p) (isox r u q) A1 f0 (ns _ HB) HG Hc (or_intror HpB)) as (Bp' & gB' & A' & f' & g' & G1 & GG2 & G3 & G4 & G5 & G6).
  assert (EB : Bp' = Bp) by (pose proof (G1 XInf) as X; rewrite J1 in X; congruence). subst Bp'.
  assert (EG : forall z, gB' z = gB z) by (intros z; pose proof (G1 z) as X; rewrite J1 in X; congruence).
  rewrite <- EF in GG2, G5, G6.
  assert (H1 : (1 <= n)%nat) by lia. pose proof (proj1 (dm xord2_two A n q H1) Ho) as [O1 O2].
  assert (HT : Nat.iter (n - 1) (dblx Ap) (g q) = g (Nat.iter (n - 1) (dblx A) q)) by (symmetry; apply (xhom_dbl F A Ap g (n - 1) q HX)).
  assert (Hg0 : g (XF 0) = XF 0) by apply HX. assert (Hz : dblx Ap (XF 0) = XInf) by (apply two_tors; unfold fx; toF_eq; ring).
  assert (Hx : xord2 Ap n (g q)).
  { apply (dm xord2_two Ap n (g q) H1). rewrite HT. destruct (Nat.iter (n - 1) (dblx A) q) as [|x0]; [contradiction|].
    destruct (kdec x0 0) as [->|N]; [rewrite Hg0; split; [discriminate|exact Hz]|]. destruct (HK2 x0 (conj N O2)) as (m' & -> & _ & Hm'). split; [discriminate|auto]. }
  exists Ap, g, A', (fun z => f' (isox r' u' z)), g'. split; [auto|]. split; [auto|]. split.
  { intros z. rewrite (quot2_any Ap Bp r' u' (g q) z HAp Hx HBp J2).
    - rewrite <- J3, <- EG. apply G3.
    - rewrite <- J3, <- EG. destruct HG as (_ & m & Hm & Em). split; [lia|].
      destruct (row3 F two h B (isox r u p) (ns _ HB) (or_intror HpB)) as (Bp2 & g2 & _ & HC3' & HX' & _ & HK2').
      assert (E1 : Bp2 = Bp) by (pose proof (HC3' XInf) as X; rewrite J1 in X; congruence). subst Bp2.
      assert (E2 : forall z, g2 z = gB' z) by (intros y; pose proof (HC3' y) as X; rewrite G1 in X; congruence).
      destruct (HK2' m Hm) as (m' & Em' & Hm'). exists m'. split; [auto|]. rewrite <- E2, <- (xhom_dbl F B Bp g2 (n - 1) _ HX'), Em. exact Em'. }
  split; [intros y; rewrite <- J3, <- EG, G4, <- EF; reflexivity|]. split; [auto|]. split; [auto|]. split; [destruct G5; [lia|auto]|]. split; [auto|]. split.
  - rewrite HT. destruct (Nat.iter (n - 1) (dblx A) q) as [|x0]; [contradiction|]. intros N. destruct (HK2 x0) as (m' & -> & Nm' & _).
    + split; [congruence|auto].
    + congruence.
  - intros d HD. apply G6; auto.
Qed.
End Cls.
End IC.
