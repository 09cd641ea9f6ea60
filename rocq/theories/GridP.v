(** The commuting square of a 2^n-isogeny and a 3^h-isogeny, and what both keep. *)
From Coq Require Import Field.
From Verif Require Import Base Out Params Ops Ec Models Fld FieldOps CurveSpec IsogSpec ModelSpec XSpec WalkSpec FldCurve GroupP MultP IsoP FldIsog FldModels
  XLine XIso Strategy XChain CheckP XIsog WalkP SquareP KumP.
Set Bullet Behavior "Strict Subproofs".

Section GR.
Variable F : fld.
Hypothesis two : (kadd k1 k1 : F) <> k0.
Local Open Scope fld_scope.
Definition kth13 := kth F.
Add Field KF13 : kth13.
Ltac toF_eq := match goal with |- ?a = ?b => change (@eq (K F) a b) end.
Implicit Types (A B k m x t : F) (q r s d : xl F) (f g : xl F -> xl F).
Local Notation dm T := (T F (k0 : F) (fun x : F => x) (fun _ _ : F => false) (fun _ : F => @nil Z) (fun _ : list Z => (k0 : F)) (fun _ : tape => @NoTape (F * tape))).
Local Notation dn T := (T F (fun x : F => x) (fun _ _ : F => false) (fun _ : F => @nil Z) (fun _ : list Z => (k0 : F)) (fun _ : tape => @NoTape (F * tape))).
Local Notation XT := (XT F).

(** f comes from a homomorphism of curves. *)
Definition xhom A A' f : Prop := f XInf = XInf /\ (forall q, f (dblx A q) = dblx A' (f q)) /\ (forall q, f (tplx A q) = tplx A' (f q)) /\
  f (XF 0) = XF 0 /\ (forall q1 q2 s d, XT A q1 q2 s d -> XT A' (f q1) (f q2) (f s) (f d)).
Lemma xhom_id A : xhom A A (fun q => q). Proof. repeat split; auto. Qed.
Lemma xhom_comp A1 A2 A3 f g : xhom A1 A2 f -> xhom A2 A3 g -> xhom A1 A3 (fun q => g (f q)).
Proof.
  intros (F1 & F2 & F3 & F4 & F5) (G1 & G2 & G3 & G4 & G5). repeat split; intros.
  - now rewrite F1.
  - now rewrite F2, G2.
  - now rewrite F3, G3.
  - now rewrite F4.
  - auto.
Qed.
Lemma xhom_dbl A A' f n q : xhom A A' f -> f (Nat.iter n (dblx A) q) = Nat.iter n (dblx A') (f q).
Proof. intros (_ & H & _). induction n as [|n IH]; [reflexivity|]. rewrite !iter_S. now rewrite H, IH. Qed.
Lemma xhom_tpl A A' f n q : xhom A A' f -> f (Nat.iter n (tplx A) q) = Nat.iter n (tplx A') (f q).
Proof. intros (_ & _ & H & _). induction n as [|n IH]; [reflexivity|]. rewrite !iter_S. now rewrite H, IH. Qed.
Lemma xhom2 A m : A * A <> 4 -> ker2 A m -> xhom A (A2 m) (phi2x m).
Proof.
  intros HA Hm. destruct (ker2_rel F A m HA Hm) as (Nm & _ & _). repeat split.
  - intros q. apply (dm phi2_dblx two A HA m Hm).
  - intros q. apply (dm phi2_tplx two A HA m Hm).
  - cbn. destruct (kdec 0 m) as [E|_]; [symmetry in E; contradiction|]. f_equal. toF_eq. field.
    replace (0 - m) with (- m) by ring. now apply (neg_nz F).
  - intros. now apply (XT_phi2 F A m).
Qed.
Lemma xhom3 A t : A * A <> 4 -> ker3 A t -> xhom A (A3 A t) (phi3x t).
Proof.
  intros HA Ht. destruct (ker3_rel F two A t HA Ht) as (Nt & _ & _). repeat split.
  - intros q. apply (dm phi3_dblx two A HA t Ht).
  - intros q. apply (dm phi3_tplx two A HA t Ht).
  - cbn. destruct (kdec 0 t) as [E|_]; [symmetry in E; contradiction|]. f_equal. toF_eq. field.
    replace (0 - t) with (- t) by ring. now apply (neg_nz F).
  - intros. now apply (XT_phi3 F two A t).
Qed.
Lemma xhom4 A k : A * A <> 4 -> ker4 A k -> xhom A (A4 k) (phi4x k).
Proof.
  intros HA (m & Nm & E1 & E2). repeat split.
  - intros q. apply (dm phi4_dblx two A HA k m Nm E1 E2).
  - intros q. apply (dm phi4_tplx two A HA k m Nm E1 E2).
  - apply (phi4x_00 F two A HA k m Nm E1 E2).
  - intros q1 q2 s d H. rewrite !(phi4_split F two A k m HA Nm E1 E2), A4_A2.
    pose proof (ker2_m4 F A m Nm E2) as Hm. pose proof (ker2_kk F two A k m HA Nm E1 E2) as Hkk.
    apply XT_negx. apply (XT_phi2 F (A2 m) (k * k)); auto; [apply (cod2 F two A HA m Hm)|]. now apply (XT_phi2 F A m).
Qed.

(** ** One column: 2^n-isogeny against one step of degree 3 *)
Definition C4 n A q A1 f : Prop := forall r, chain4 n A q r = Some (A1, f r).
Definition C2 n A q A1 f : Prop := forall r, chain2 n A q r = Some (A1, f r).
Definition C3 n A q A1 f : Prop := forall r, chain3 n A q r = Some (A1, f r).
Definition col (ch : F -> xl F -> F -> (xl F -> xl F) -> Prop) (n : nat) A q A1 f : Prop :=
  A1 * A1 <> 4 /\ ch A q A1 f /\ xhom A A1 f /\ (forall r, f r = XInf -> Nat.iter n (dblx A) r = XInf) /\
  forall t, ker3 A t -> exists t1 f', f (XF t) = XF t1 /\ ker3 A1 t1 /\ ch (A3 A t) (phi3x t q) (A3 A1 t1) f' /\ forall r, f' (phi3x t r) = phi3x t1 (f r).
Lemma ker2_phi3 A t m : A * A <> 4 -> ker3 A t -> ker2 A m -> exists m', phi3x t (XF m) = XF m' /\ ker2 (A3 A t) m'.
Proof. intros HA Ht Hm. exists (m23 F m t). split; [apply (phi3_m F two A m t HA Hm Ht)|apply (ker2_m F two A m t HA Hm Ht)]. Qed.
Lemma ord4_phi3 n A q t : A * A <> 4 -> ker3 A t -> ord4 F n A q -> ord4 F n (A3 A t) (phi3x t q).
Proof.
  intros HA Ht (m & Nm & E1 & E2). destruct (ker2_phi3 A t m HA Ht (conj Nm E2)) as (m' & Em & Nm' & Ed).
  exists m'. split; [auto|]. split; [|auto]. rewrite <- (xhom_dbl A _ _ _ _ (xhom3 A t HA Ht)), E1. auto.
Qed.
Lemma col4 n : forall A q, A * A <> 4 -> (n = 0%nat \/ ord4 F n A q) -> exists A1 f, col (C4 n) (2 * n) A q A1 f.
Proof.
  induction n as [|n IH]; intros A q HA Ho.
  { exists A, (fun q => q). split; [auto|]. split; [intros r; reflexivity|]. split; [apply xhom_id|]. split; [auto|].
    intros t Ht. exists t, (fun q => q). split; [reflexivity|]. split; [auto|]. split; [intros r; reflexivity|auto]. }
  destruct Ho as [|Ho]; [discriminate|].
  destruct (dn ord4_S n A q Ho) as (k & m & Ek & Nm & E1 & E2).
  assert (Hk : ker4 A k) by (exists m; auto). pose proof (cod4 F two A HA k m Nm E1 E2) as HA4.
  assert (Ho' : n = 0%nat \/ ord4 F n (A4 k) (phi4x k q)).
  { destruct n as [|n]; [auto|right]. apply (dm next4 two A n q k HA Ho Ek). }
  destruct (IH _ _ HA4 Ho') as (A1 & f & H1 & Hc & Hh & Hk0 & Ht0).
  exists A1, (fun r => f (phi4x k r)). split; [auto|]. split.
  { intros r. cbn [chain4]. rewrite Ek. apply Hc. }
  split. { eapply xhom_comp; [now apply xhom4|exact Hh]. }
  split.
  { intros r Hr. apply Hk0 in Hr. replace (2 * S n)%nat with (2 + 2 * n)%nat by lia. rewrite Nat.add_comm.
    rewrite <- (xhom_dbl A _ _ _ _ (xhom4 A k HA Hk)) in Hr. apply (dm phi4x_inf two A HA k m Nm E1 E2) in Hr.
    rewrite Nat.add_comm. change (2 + 2 * n)%nat with (S (S (2 * n))). rewrite !iter_S. destruct Hr as [->|[->| ->]].
    - reflexivity.
    - now rewrite E1.
    - now rewrite E2. }
  intros t Ht. destruct (sq34 F two A k t HA Hk Ht) as (t' & k' & S1 & S2 & S3 & S4 & S5 & S6).
  destruct (Ht0 t' S3) as (t1 & f' & T1 & T2 & T3 & T4).
  exists t1, (fun r => f' (phi4x k' r)). split; [now rewrite S1|]. split; [auto|]. split.
  - intros r. cbn [chain4]. rewrite <- (xhom_dbl A _ _ _ _ (xhom3 A t HA Ht)), Ek, S2, S5, S6. apply T3.
  - intros r. rewrite S6. apply T4.
Qed.

(** q has a multiple 2^(n-1) q of order 2 other than (0,0). *)
Definition G2 n A q : Prop := (1 <= n)%nat /\ exists m, ker2 A m /\ Nat.iter (n - 1) (dblx A) q = XF m.
Lemma G2_phi3 n A q t : A * A <> 4 -> ker3 A t -> G2 n A q -> G2 n (A3 A t) (phi3x t q).
Proof.
  intros HA Ht (Hn & m & Hm & E). split; [auto|]. destruct (ker2_phi3 A t m HA Ht Hm) as (m' & Em & Hm').
  exists m'. split; [auto|]. now rewrite <- (xhom_dbl A _ _ _ _ (xhom3 A t HA Ht)), E.
Qed.
Lemma half n : (n = (if Nat.odd n then 1 else 0) + 2 * (n / 2))%nat.
Proof. pose proof (Nat.div2_odd n) as H. rewrite Nat.div2_div in H. destruct (Nat.odd n); cbn [Nat.b2n] in H; lia. Qed.
Lemma col2 n A q : A * A <> 4 -> G2 n A q -> exists A1 f, col (C2 n) n A q A1 f.
Proof.
  intros HA HG. pose proof (half n) as Hn. destruct HG as (Hp & m & Hm & Em).
  destruct (Nat.odd n) eqn:Eo.
  - pose proof (cod2 F two A HA m Hm) as HA2.
    assert (Ho : (n / 2 = 0)%nat \/ ord4 F (n / 2) (A2 m) (phi2x m q)).
    { destruct (n / 2)%nat as [|h]; [auto|right]. apply (dm next2 two A (S h) q m HA); [lia| |exact Hm].
      replace (2 * S h)%nat with (n - 1)%nat by lia. exact Em. }
    destruct (col4 (n / 2) _ _ HA2 Ho) as (A1 & f & H1 & Hc & Hh & Hk0 & Ht0).
    exists A1, (fun r => f (phi2x m r)). split; [auto|]. split.
    { intros r. unfold chain2. rewrite Eo, Em. apply Hc. }
    split. { eapply xhom_comp; [now apply xhom2|exact Hh]. }
    split.
    { intros r Hr. apply Hk0 in Hr. rewrite <- (xhom_dbl A _ _ _ _ (xhom2 A m HA Hm)) in Hr.
      apply (dm phi2x_inf m) in Hr. assert (X : Nat.iter (S (2 * (n / 2))) (dblx A) r = XInf).
      { rewrite iter_S. destruct Hr as [->| ->]; [reflexivity|exact (proj2 Hm)]. }
      replace (S (2 * (n / 2))) with n in X by (clear - Hn; lia). exact X. }
    intros t Ht. pose proof (ker3_t F two A m t HA Hm Ht) as S3.
    destruct (Ht0 _ S3) as (t1 & f' & T1 & T2 & T3 & T4).
    exists t1, (fun r => f' (phi2x (m23 F m t) r)). split; [now rewrite (phi2_t F two A m t HA Hm Ht)|]. split; [auto|]. split.
    + intros r. unfold chain2. rewrite Eo. rewrite <- (xhom_dbl A _ _ _ _ (xhom3 A t HA Ht)), Em.
      rewrite (phi3_m F two A m t HA Hm Ht), (cod23 F two A m t HA Hm Ht), (sq23 F two A m t HA Hm Ht). apply T3.
    + intros r. rewrite (sq23 F two A m t HA Hm Ht). apply T4.
  - assert (Ho : (n / 2 = 0)%nat \/ ord4 F (n / 2) A q).
    { right. exists m. split; [apply Hm|]. split; [|apply Hm]. replace (2 * (n / 2) - 1)%nat with (n - 1)%nat by lia. exact Em. }
    destruct (col4 (n / 2) _ _ HA Ho) as (A1 & f & H1 & Hc & Hh & Hk0 & Ht0).
    assert (E : forall A q r, chain2 n A q r = chain4 (n / 2) A q r) by (intros; unfold chain2; now rewrite Eo).
    exists A1, f. split; [auto|]. split; [intros r; rewrite E; apply Hc|]. split; [auto|]. split.
    { intros r Hr. apply Hk0 in Hr. replace (2 * (n / 2))%nat with n in Hr by (clear - Hn; lia). exact Hr. }
    intros t Ht. destruct (Ht0 t Ht) as (t1 & f' & T1 & T2 & T3 & T4). exists t1, f'. repeat split; auto. intros r. rewrite E. apply T3.
Qed.
(** ** The 3^h-isogeny *)
Definition row h A p Ap g : Prop := Ap * Ap <> 4 /\ C3 h A p Ap g /\ xhom A Ap g /\ (forall r, g r = XInf -> Nat.iter h (tplx A) r = XInf) /\
  (forall m, ker2 A m -> exists m', g (XF m) = XF m' /\ ker2 Ap m').
Lemma row3 h : forall A p, A * A <> 4 -> (h = 0%nat \/ ord3 F h A p) -> exists Ap g, row h A p Ap g.
Proof.
  induction h as [|h IH]; intros A p HA Ho.
  { exists A, (fun q => q). split; [auto|]. split; [intros r; reflexivity|]. split; [apply xhom_id|]. split; [auto|]. intros m Hm. exists m. auto. }
  destruct Ho as [|Ho]; [discriminate|]. destruct (dn ord3_S h A p Ho) as (t & Et & Ht).
  pose proof (dm cod3 two A HA t Ht) as HA3.
  assert (Ho' : h = 0%nat \/ ord3 F h (A3 A t) (phi3x t p)).
  { destruct h as [|h]; [auto|right]. apply (dm next3 two A h p t HA Ho Et Ht). }
  destruct (IH _ _ HA3 Ho') as (Ap & g & H1 & Hc & Hh & Hk & Hm).
  exists Ap, (fun r => g (phi3x t r)). split; [auto|]. split; [intros r; cbn [chain3]; rewrite Et; apply Hc|].
  split; [eapply xhom_comp; [now apply xhom3|exact Hh]|]. split.
  - intros r Hr. apply Hk in Hr. rewrite <- (xhom_tpl A _ _ _ _ (xhom3 A t HA Ht)) in Hr. apply (dm phi3x_inf t) in Hr.
    rewrite iter_S. destruct Hr as [->| ->]; [reflexivity|exact Ht].
  - intros m Hm0. destruct (ker2_phi3 A t m HA Ht Hm0) as (m1 & E1 & K1). rewrite E1. now apply Hm.
Qed.
(** ** The square *)
Lemma grid n h : forall A p q A1 f, A * A <> 4 -> G2 n A q -> C2 n A q A1 f -> (h = 0%nat \/ ord3 F h A p) ->
  exists Ap g A' f' g', C3 h A p Ap g /\ C3 h A1 (f p) A' g' /\ C2 n Ap (g q) A' f' /\ (forall r, f' (g r) = g' (f r)).
Proof.
  induction h as [|h IH]; intros A p q A1 f HA HG Hf Ho.
  { exists A, (fun q => q), A1, f, (fun q => q). repeat split; auto; intros r; reflexivity. }
  destruct Ho as [|Ho]; [discriminate|]. destruct (dn ord3_S h A p Ho) as (t & Et & Ht).
  pose proof (dm cod3 two A HA t Ht) as HA3.
  assert (Ho' : h = 0%nat \/ ord3 F h (A3 A t) (phi3x t p)).
  { destruct h as [|h]; [auto|right]. apply (dm next3 two A h p t HA Ho Et Ht). }
  destruct (col2 n A q HA HG) as (A1' & f0 & H1 & Hc & Hh & _ & Hs).
  assert (E0 : forall r, (A1', f0 r) = (A1, f r)) by (intros r; specialize (Hc r); rewrite Hf in Hc; congruence).
  assert (EA : A1' = A1) by (specialize (E0 XInf); congruence). subst A1'.
  assert (Ef : forall r, f0 r = f r) by (intros r; specialize (E0 r); congruence). clear E0.
  destruct (Hs t Ht) as (t1 & f1 & T1 & T2 & T3 & T4).
  destruct (IH (A3 A t) (phi3x t p) (phi3x t q) (A3 A1 t1) f1 HA3 (G2_phi3 n A q t HA Ht HG) T3 Ho') as (Ap & g & A' & f' & g' & I1 & I2 & I3 & I4).
  exists Ap, (fun r => g (phi3x t r)), A', f', (fun r => g' (phi3x t1 r)). repeat split.
  - intros r. cbn [chain3]. rewrite Et. apply I1.
  - intros r. cbn [chain3]. rewrite <- Ef. rewrite <- (xhom_tpl A _ _ _ _ Hh), Et, T1, <- T4. apply I2.
  - exact I3.
  - intros r. rewrite I4, T4, Ef. reflexivity.
Qed.
End GR.
