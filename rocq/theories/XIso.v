(** Isogenies of degree 2, 3, 4 on x-coordinates: the code computes them and they commute with 2 and 3. *)
From Coq Require Import Field.
From Verif Require Import Base Out Ops Ec Fld FieldOps CurveSpec IsogSpec XSpec FldCurve GroupP MultP FldIsog XLine.
Set Bullet Behavior "Strict Subproofs".

Section XI.
Variable F : fld.
Variables (unit : F) (sqrt : F -> F) (lt : F -> F -> bool) (enc : F -> list Z) (dec : list Z -> F) (rnd : tape -> out (F * tape)).
Local Notation O := (fld_ops F unit sqrt lt enc dec rnd).
Hypothesis two : (kadd k1 k1 : F) <> k0.
Local Open Scope fld_scope.
Definition kth7 := kth F.
Add Field KF7 : kth7.
Ltac fsd := repeat match goal with |- _ /\ _ => split end;
  first [assumption | exact two | exact (four_nz F two) | apply (neg_nz F); assumption].
Ltac opn := cbn [fld_ops o_add o_sub o_madd o_msub o_mul o_sqr o_zero fst snd pX pZ co0 co1 co2].
Ltac toF_eq := match goal with |- ?a = ?b => change (@eq (K F) a b) end.
Ltac rng := toF_eq; ring.
Notation repp := (repp F unit sqrt lt enc dec rnd).
Notation dbl_rep := (dbl_rep F unit sqrt lt enc dec rnd two).
Notation tpl_rep := (tpl_rep F unit sqrt lt enc dec rnd two).
Definition pt0 (q : xl F) : point F := match q with XInf => Inf | XF x => Aff x 0 end.
Lemma rep_pt0 (X Z : F) q : rep X Z q <-> xz X Z (pt0 q).
Proof. destruct q; reflexivity. Qed.
Lemma xof_pt0 q : xof (pt0 q) = q. Proof. destruct q; reflexivity. Qed.
Lemma xof_phi2 (k : F) M : xof (phi2 k M) = phi2x k (xof M).
Proof. destruct M as [|x y]; [reflexivity|]. cbn. destruct (kdec x k); reflexivity. Qed.
Lemma xof_phi3 (k : F) M : xof (phi3 k M) = phi3x k (xof M).
Proof. destruct M as [|x y]; [reflexivity|]. cbn. destruct (kdec x k); reflexivity. Qed.
Lemma xof_phi4 (k : F) M : xof (phi4 k M) = phi4x k (xof M).
Proof. destruct M as [|x y]; [reflexivity|]. cbn. destruct (kdec x k); [reflexivity|]. destruct (kdec _ _); reflexivity. Qed.
Lemma rep_phi2 k q (X Z : F) : xz X Z (phi2 k (pt0 q)) -> rep X Z (phi2x k q).
Proof. rewrite rep_xz, xof_phi2, xof_pt0. auto. Qed.
Lemma rep_phi3 k q (X Z : F) : xz X Z (phi3 k (pt0 q)) -> rep X Z (phi3x k q).
Proof. rewrite rep_xz, xof_phi3, xof_pt0. auto. Qed.
Lemma rep_phi4 k q (X Z : F) : xz X Z (phi4 k (pt0 q)) -> rep X Z (phi4x k q).
Proof. rewrite rep_xz, xof_phi4, xof_pt0. auto. Qed.
Lemma xof_inf (M : point F) : xof M = XInf -> M = Inf. Proof. destruct M; [auto|discriminate]. Qed.
Lemma xof_aff (M : point F) x : xof M = XF x -> exists y, M = Aff x y.
Proof. destruct M as [|x' y]; [discriminate|]. intros E. injection E as ->. eauto. Qed.

Variable A : F.
Hypothesis HA : A * A <> 4.

Section D2.
Variable k : F.
Hypothesis Hk : ker2 A k.
Lemma ker2_on : on A 1 (Aff k 0).
Proof.
  destruct Hk as [_ H]. cbn in H. destruct (kdec (fx A k) 0) as [E|]; [|discriminate]. cbn. rewrite E. ring.
Qed.
Lemma get2_rep (S : pt O) : repp S (XF k) -> (snd (get_2_isog O S) : F) <> 0 /\ 4 * fst (get_2_isog O S) = (A2 k + 2) * snd (get_2_isog O S).
Proof. destruct S as [X Z]. intros H. apply (get2_ok F unit sqrt lt enc dec rnd k X Z). exact H. Qed.
Lemma ev2_rep (S Q : pt O) q : repp S (XF k) -> repp Q q -> repp (eval_2_isog O Q S) (phi2x k q).
Proof.
  destruct S as [X2 Z2], Q as [X Z]. intros H HQ. apply rep_phi2. destruct Hk as [Nk _].
  apply (phi2_xz F unit sqrt lt enc dec rnd two A 1 HA k Nk ker2_on); auto. now apply rep_pt0.
Qed.
Lemma cod2 : A2 k * A2 k <> 4.
Proof. destruct Hk as [Nk _]. apply (cod2_ns F two A 1 HA (one_nz F) k Nk ker2_on). Qed.
Lemma rep_k1 (x : F) : rep (x * 1) 1 (XF x). Proof. split; [apply (one_nz F)|reflexivity]. Qed.
Lemma phi2_dblx q : phi2x k (dblx A q) = dblx (A2 k) (phi2x k q).
Proof.
  destruct (rep_ex F q) as (X & Z & HX). pose proof Hk as [Nk _]. pose proof (four_nz F two) as N4. pose proof (one_nz F) as N1.
  destruct (get2_rep (@mkPt O (k * 1) 1) (rep_k1 k)) as [G1 G2].
  pose proof (comm2_2 F unit sqrt lt enc dec rnd k 1 1 X Z) as [E1 E2].
  eapply (rep_prop F _ _ _ _ _ _ _ _ _ _ E1 E2).
  - apply ev2_rep; [apply rep_k1|]. apply (dbl_rep A HA (@mkPt O X Z)); auto.
    + repeat apply (mul_nz F); auto.
    + rewrite (k2_A F A 1 k Nk ker2_on) at 1. field. fsd.
  - apply (dbl_rep (A2 k) cod2); auto. apply ev2_rep; auto. apply rep_k1.
  Unshelve. all: unfold sq; repeat apply (mul_nz F); auto.
Qed.
Lemma phi2_tplx q : phi2x k (tplx A q) = tplx (A2 k) (phi2x k q).
Proof.
  destruct (rep_ex F q) as (X & Z & HX). pose proof Hk as [Nk _]. pose proof (four_nz F two) as N4. pose proof (one_nz F) as N1.
  pose proof (comm2_3 F unit sqrt lt enc dec rnd k 1 1 X Z) as [E1 E2].
  eapply (rep_prop F _ _ _ _ _ _ _ _ _ _ E1 E2).
  - apply ev2_rep; [apply rep_k1|]. apply (tpl_rep A HA (@mkPt O X Z)) with (s := k); auto.
    + rewrite (k2_A F A 1 k Nk ker2_on) at 1. field. fsd.
    + rewrite (k2_A F A 1 k Nk ker2_on) at 1. field. fsd.
  - apply (tpl_rep (A2 k) cod2) with (s := 1 / 4).
    + apply ev2_rep; auto. apply rep_k1.
    + intros E. apply (one_nz F). transitivity (1 / 4 * 4 : F); [field; fsd|]. rewrite E. ring.
    + unfold get_2_isog, A2. opn. toF_eq. field. fsd.
    + unfold get_2_isog, A2. opn. toF_eq. field. fsd.
  Unshelve. all: unfold sq; repeat apply (mul_nz F); auto.
Qed.
Lemma phi2x_inf q : phi2x k q = XInf <-> q = XInf \/ q = XF k.
Proof.
  destruct q as [|x]; cbn; [tauto|]. destruct (kdec x k) as [->|N]; [tauto|]. split; [discriminate|]. intros [D|D]; [discriminate|]. injection D. contradiction.
Qed.
End D2.

Section D3.
Variable k : F.
Hypothesis Hk : ker3 A k.
Lemma ker3_on : exists B yk, B <> 0 /\ on A B (Aff k yk) /\ padd A B (Aff k yk) (padd A B (Aff k yk) (Aff k yk)) = Inf.
Proof.
  destruct (lift F A (XF k)) as (B & M & HB & HM & E). apply xof_aff in E as [y ->]. exists B, y. repeat split; auto.
  apply xof_inf. rewrite <- (tplx_pt F unit sqrt lt enc dec rnd two A B _ HA HB HM). exact Hk.
Qed.
Lemma rep_k (S : pt O) (x : F) : repp S (XF x) -> exists s : F, s <> 0 /\ S = @mkPt O (x * s) s.
Proof. destruct S as [X Z]. intros [H1 H2]. cbn in *. exists Z. split; auto. now rewrite H2. Qed.
Lemma get3_rep (S : pt O) : repp S (XF k) -> exists s, s <> 0 /\ fst (fst (get_3_isog O S)) = (A3 A k - 2) * s /\ snd (fst (get_3_isog O S)) = (A3 A k + 2) * s.
Proof.
  intros H. apply rep_k in H as (s & Hs & ->). destruct ker3_on as (B & yk & HB & Ho & H3).
  exists (s3 F k s). split; [apply (s3_nz F unit sqrt lt enc dec rnd two A B HA HB k yk Ho H3); auto|].
  apply (get3_ok F unit sqrt lt enc dec rnd two A B HA HB k yk Ho H3).
Qed.
Lemma ev3_rep (S Q : pt O) q : repp S (XF k) -> repp Q q -> repp (eval_3_isog O (snd (get_3_isog O S)) Q) (phi3x k q).
Proof.
  intros H HQ. apply rep_k in H as (s & Hs & ->). destruct Q as [X Z]. destruct ker3_on as (B & yk & HB & Ho & H3). apply rep_phi3.
  apply (phi3_xz F unit sqrt lt enc dec rnd two A B HA HB k yk Ho H3); auto. now apply rep_pt0.
Qed.
Lemma cod3 : A3 A k * A3 A k <> 4.
Proof. destruct ker3_on as (B & yk & HB & Ho & H3). apply (cod3_ns F unit sqrt lt enc dec rnd two A B HA HB k yk Ho H3). Qed.
Lemma phi3_dblx q : phi3x k (dblx A q) = dblx (A3 A k) (phi3x k q).
Proof.
  destruct (rep_ex F q) as (X & Z & HX). destruct ker3_on as (B & yk & HB & Ho & H3).
  pose proof (k3_nz F unit sqrt lt enc dec rnd two A B HA HB k yk Ho H3) as Nk. pose proof (four_nz F two) as N4. pose proof (one_nz F) as N1.
  destruct (get3_rep (@mkPt O (k * 1) 1) (rep_k1 k)) as (s & Ns & G1 & G2).
  pose proof (comm3_2 F unit sqrt lt enc dec rnd k 1 1 X Z) as [E1 E2].
  eapply (rep_prop F _ _ _ _ _ _ _ _ _ _ E1 E2).
  - apply ev3_rep; [apply rep_k1|]. apply (dbl_rep A HA (@mkPt O X Z)); auto.
    + repeat apply (mul_nz F); auto.
    + apply (k3_cases F unit sqrt lt enc dec rnd two A B HA HB k yk Ho H3).
  - rewrite G1, G2. apply (dbl_rep (A3 A k) cod3).
    + apply ev3_rep; auto. apply rep_k1.
    + replace ((A3 A k + 2) * s - (A3 A k - 2) * s) with (4 * s) by ring. now apply (mul_nz F).
    + ring.
  Unshelve. all: unfold sq; repeat (apply (mul_nz F) || apply (neg_nz F)); auto.
Qed.
Lemma phi3_tplx q : phi3x k (tplx A q) = tplx (A3 A k) (phi3x k q).
Proof.
  destruct (rep_ex F q) as (X & Z & HX). destruct ker3_on as (B & yk & HB & Ho & H3).
  pose proof (k3_nz F unit sqrt lt enc dec rnd two A B HA HB k yk Ho H3) as Nk. pose proof (four_nz F two) as N4. pose proof (one_nz F) as N1.
  destruct (get3_rep (@mkPt O (k * 1) 1) (rep_k1 k)) as (s & Ns & G1 & G2).
  pose proof (comm3_3 F unit sqrt lt enc dec rnd k 1 1 X Z) as [E1 E2].
  eapply (rep_prop F _ _ _ _ _ _ _ _ _ _ E1 E2).
  - apply ev3_rep; [apply rep_k1|]. apply (tpl_rep A HA (@mkPt O X Z)) with (s := 4 * (k * k * k)); auto.
    + repeat apply (mul_nz F); auto.
    + rewrite (k3_A F unit sqrt lt enc dec rnd two A B HA HB k yk Ho H3) at 1. field. fsd.
    + rewrite (k3_A F unit sqrt lt enc dec rnd two A B HA HB k yk Ho H3) at 1. field. fsd.
  - rewrite G1, G2. apply (tpl_rep (A3 A k) cod3) with (s := s); auto.
    apply ev3_rep; auto. apply rep_k1.
  Unshelve. all: unfold sq; repeat (apply (mul_nz F) || apply (neg_nz F)); auto.
Qed.
Lemma phi3x_inf q : phi3x k q = XInf <-> q = XInf \/ q = XF k.
Proof.
  destruct q as [|x]; cbn; [tauto|]. destruct (kdec x k) as [->|N]; [tauto|]. split; [discriminate|]. intros [D|D]; [discriminate|]. injection D. contradiction.
Qed.
End D3.

Section D4.
Variable k m : F.
Hypothesis Nm : m <> 0.
Hypothesis Hkm : dblx A (XF k) = XF m.
Hypothesis Hm : dblx A (XF m) = XInf.
Lemma ker4_on : exists B yk, B <> 0 /\ on A B (Aff k yk) /\ padd A B (Aff k yk) (Aff k yk) = Aff m 0.
Proof.
  destruct (lift F A (XF k)) as (B & M & HB & Ho & E). apply xof_aff in E as [y ->]. exists B, y. repeat split; auto.
  pose proof (dblx_pt F two A B _ HA HB Ho) as E. cbn [xof] in E. rewrite Hkm in E. symmetry in E.
  pose proof (padd_on F two A B HA HB _ _ Ho Ho) as Ho2.
  destruct (xof_aff _ _ E) as [y2 E2]. rewrite E2 in *. f_equal.
  apply (y0 F A B HB m y2 Ho2). cbn in Hm. destruct (kdec (fx A m) 0); [auto|discriminate].
Qed.
Lemma ker4_m : 2 * (m * k) = k * k + 1.
Proof. destruct ker4_on as (B & yk & HB & Ho & H). apply (k4_m F two A B HA HB k yk m Nm Ho H). Qed.
Lemma ker4_nz : k <> 0.
Proof. destruct ker4_on as (B & yk & HB & Ho & H). apply (k4_nz F two A B HA HB k yk m Nm Ho H). Qed.
Lemma ker4_nz1 : k * k + 1 <> 0.
Proof. destruct ker4_on as (B & yk & HB & Ho & H). apply (k4_nz1 F two A B HA HB k yk m Nm Ho H). Qed.
Lemma ker4_ne : k * k - 1 <> 0.
Proof. destruct ker4_on as (B & yk & HB & Ho & H). apply (k4_ne F two A B HA HB k yk m Nm Ho H). Qed.
Lemma ker4_A : A = - ((k * k + 1) * (k * k + 1) + 4 * (k * k)) / (2 * (k * (k * k + 1))).
Proof. destruct ker4_on as (B & yk & HB & Ho & H). apply (k4_A F two A B HA HB k yk m Nm Ho H). Qed.
Lemma get4_rep (S : pt O) : repp S (XF k) -> (snd (fst (get_4_isog O S)) : F) <> 0 /\
  4 * fst (fst (get_4_isog O S)) = (A4 k + 2) * snd (fst (get_4_isog O S)).
Proof. intros H. apply rep_k in H as (s & Hs & ->). apply (get4_ok F unit sqrt lt enc dec rnd two k s Hs). Qed.
Lemma ev4_rep (S Q : pt O) q : repp S (XF k) -> repp Q q -> repp (eval_4_isog O (snd (get_4_isog O S)) Q) (phi4x k q).
Proof.
  intros H HQ. apply rep_k in H as (s & Hs & ->). destruct Q as [X Z]. destruct ker4_on as (B & yk & HB & Ho & H4). apply rep_phi4.
  apply (phi4_xz F unit sqrt lt enc dec rnd two A B HA HB k yk m Nm Ho H4); auto. now apply rep_pt0.
Qed.
Lemma cod4 : A4 k * A4 k <> 4.
Proof. destruct ker4_on as (B & yk & HB & Ho & H4). apply (cod4_ns F two A B HA HB k yk m Nm Ho H4). Qed.
Lemma phi4_dblx q : phi4x k (dblx A q) = dblx (A4 k) (phi4x k q).
Proof.
  destruct (rep_ex F q) as (X & Z & HX). pose proof ker4_nz as Nk. pose proof ker4_nz1 as Nk1. pose proof ker4_ne as Nk2.
  pose proof (four_nz F two) as N4. pose proof (one_nz F) as N1.
  destruct (get4_rep (@mkPt O (k * 1) 1) (rep_k1 k)) as [G1 G2].
  pose proof (comm4_2 F unit sqrt lt enc dec rnd k 1 1 X Z) as [E1 E2].
  eapply (rep_prop F _ _ _ _ _ _ _ _ _ _ E1 E2).
  - apply ev4_rep; [apply rep_k1|]. apply (dbl_rep A HA (@mkPt O X Z)); auto.
    + repeat apply (mul_nz F); auto.
    + rewrite ker4_A at 1. field. fsd.
  - apply (dbl_rep (A4 k) cod4); auto. apply ev4_rep; auto. apply rep_k1.
  Unshelve. all: unfold sq; repeat apply (mul_nz F); auto.
Qed.
Lemma phi4_tplx q : phi4x k (tplx A q) = tplx (A4 k) (phi4x k q).
Proof.
  destruct (rep_ex F q) as (X & Z & HX). pose proof ker4_nz as Nk. pose proof ker4_nz1 as Nk1. pose proof ker4_ne as Nk2.
  pose proof (four_nz F two) as N4. pose proof (one_nz F) as N1.
  pose proof (comm4_3 F unit sqrt lt enc dec rnd k 1 1 X Z) as [E1 E2].
  eapply (rep_prop F _ _ _ _ _ _ _ _ _ _ E1 E2).
  - apply ev4_rep; [apply rep_k1|]. apply (tpl_rep A HA (@mkPt O X Z)) with (s := 2 * (k * (k * k + 1))); auto.
    + repeat apply (mul_nz F); auto.
    + rewrite ker4_A at 1. field. fsd.
    + rewrite ker4_A at 1. field. fsd.
  - apply (tpl_rep (A4 k) cod4) with (s := 1).
    + apply ev4_rep; auto. apply rep_k1.
    + auto.
    + unfold get_4_isog, A4. opn. rng.
    + unfold get_4_isog, A4. opn. rng.
  Unshelve. all: unfold sq; repeat apply (mul_nz F); auto.
Qed.
Lemma phi4x_inf q : phi4x k q = XInf <-> q = XInf \/ q = XF k \/ q = XF m.
Proof.
  pose proof ker4_nz as Nk. destruct q as [|x]; cbn; [tauto|]. destruct (kdec x k) as [->|N]; [tauto|].
  destruct (kdec _ _) as [E|N2].
  - assert (x = m) as ->; [|tauto]. apply (mul_cancel F) with (2 * k); [now apply (mul_nz F)|].
    transitivity (2 * (k * x)); [ring|]. rewrite E, <- ker4_m. ring.
  - split; [discriminate|]. intros [D|[D|D]]; [discriminate| |]; injection D; [contradiction|].
    intros ->. exfalso. apply N2. rewrite <- ker4_m. ring.
Qed.
(** The points mapped to (0,0). *)
Lemma phi4x_zero q : phi4x k q = XF 0 -> q = XF 0 \/ dblx A q = XInf \/ dblx A q = XF m.
Proof.
  pose proof ker4_nz as Nk. pose proof ker4_nz1 as Nk1. pose proof ker4_ne as Nk2. pose proof (four_nz F two) as N4.
  destruct q as [|x]; cbn [phi4x]; [discriminate|]. destruct (kdec x k) as [|N]; [discriminate|].
  destruct (kdec _ _) as [|N2]; [discriminate|]. intros E. injection E as E.
  assert (Nd : 2 * (k * x) - k * k - 1 <> 0) by (intros E0; apply N2, (sub_eq F); rewrite <- E0; ring).
  apply (sub_nz F) in N.
  assert (E' : x * ((k * k + 1) * x - 2 * k) * ((k * x - 1) * (k * x - 1)) = 0).
  { transitivity (- (- (x * ((k * k + 1) * x - 2 * k) * ((k * x - 1) * (k * x - 1))) / ((x - k) * (x - k) * (2 * (k * x) - k * k - 1))) *
      ((x - k) * (x - k) * (2 * (k * x) - k * k - 1))); [set (d := 2 * (k * x) - k * k - 1) in *; clearbody d; field; fsd|].
    rewrite E. ring. }
  apply (mul_z F) in E' as [E'|E'].
  - apply (mul_z F) in E' as [->|E']; [auto|]. right; left.
    assert (Ex : x = 2 * k / (k * k + 1)) by (transitivity (((k * k + 1) * x - 2 * k + 2 * k) / (k * k + 1)); [field; fsd|rewrite E'; field; fsd]).
    cbn [dblx]. destruct (kdec (fx A x) 0) as [|N0]; [reflexivity|exfalso; apply N0]. rewrite ker4_A, Ex. unfold fx. field. fsd.
  - apply (sqr_z F) in E'. right; right.
    assert (Ex : x = 1 / k) by (transitivity ((k * x - 1 + 1) / k); [field; fsd|rewrite E'; field; fsd]).
    rewrite <- Hkm. cbn [dblx].
    assert (Ef : fx A x = fx A k / (k * k * (k * k))) by (rewrite Ex; unfold fx; field; fsd).
    destruct (kdec (fx A k) 0) as [E0|N0]; [exfalso|].
    { pose proof Hkm as D. cbn in D. destruct (kdec (fx A k) 0); [discriminate|contradiction]. }
    rewrite Ef. destruct (kdec _ 0) as [E0|N1].
    { exfalso. apply N0. transitivity (fx A k / (k * k * (k * k)) * (k * k * (k * k))); [field; fsd|rewrite E0; ring]. }
    f_equal. rewrite Ex. field. fsd.
Qed.
(** (0,0) is mapped to (0,0), and so are all 2-torsion points outside the kernel. *)
Lemma phi4x_00 : phi4x k (XF 0) = XF 0.
Proof.
  pose proof ker4_nz as Nk. pose proof ker4_nz1 as Nk1. cbn. destruct (kdec 0 k) as [E|_]; [congruence|].
  destruct (kdec _ _) as [E|_]; [exfalso; apply Nk1; rewrite <- E; ring|]. f_equal.
  assert (N : 2 * (k * 0) - k * k - 1 <> 0) by (replace (2 * (k * 0) - k * k - 1) with (- (k * k + 1)) by ring; fsd).
  set (d := 2 * (k * 0) - k * k - 1) in *. assert (0 - k <> 0) by (replace (0 - k) with (- k) by ring; fsd). field. fsd.
Qed.
End D4.
End XI.
