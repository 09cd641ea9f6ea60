(** Walks of isogenies over a field: the kernel of the dual of the last step, classes of curves. *)
From Coq Require Import Field.
From Verif Require Import Base Out Params Ops Ec Models Fld FieldOps CurveSpec IsogSpec ModelSpec XSpec WalkSpec FldCurve GroupP MultP IsoP FldIsog FldModels
  XLine XIso Strategy XChain CheckP XIsog.
Set Bullet Behavior "Strict Subproofs".

Section WP.
Variable F : fld.
Hypothesis two : (kadd k1 k1 : F) <> k0.
Local Open Scope fld_scope.
Definition kth10 := kth F.
Add Field KF10 : kth10.
Ltac fsd := repeat match goal with |- _ /\ _ => split end;
  first [assumption | exact two | exact (four_nz F two) | apply (neg_nz F); assumption].
Ltac toF_eq := match goal with |- ?a = ?b => change (@eq (K F) a b) end.
Ltac rng := toF_eq; ring.
Implicit Types (A B k m x t u : F) (q r s : xl F).
Notation ord4 := (ord4 F). Notation ord3 := (ord3 F).
Local Notation dm T := (T F (k0 : F) (fun x : F => x) (fun _ _ : F => false) (fun _ : F => @nil Z) (fun _ : list Z => (k0 : F)) (fun _ : tape => @NoTape (F * tape))).

Local Notation dn T := (T F (fun x : F => x) (fun _ _ : F => false) (fun _ : F => @nil Z) (fun _ : list Z => (k0 : F)) (fun _ : tape => @NoTape (F * tape))).

(** ** The points of order 2 *)
Lemma two_tors (A x : F) : dblx A (XF x) = XInf <-> fx A x = 0.
Proof. cbn. destruct (kdec (fx A x) 0); split; auto; [discriminate|contradiction]. Qed.
Lemma other_root (A m x : F) : m <> 0 -> fx A m = 0 -> fx A x = 0 -> A * A <> 4 -> x = 0 \/ x = m \/ (m * x = 1 /\ x <> 0).
Proof.
  intros Nm Hm Hx HA. destruct (kdec x 0) as [E|Nx]; [auto|]. right. destruct (kdec x m) as [E|N]; [auto|]. right. split; [|auto].
  unfold fx in *. assert (N' : x - m <> 0) by (intros E; apply N; now apply (sub_eq F)).
  apply (mul_cancel F) with (x - m); [auto|].
  assert (E1 : m * m + A * m + 1 = 0).
  { apply (mul_cancel F) with m; [auto|]. transitivity (m * m * m + A * (m * m) + m); [ring|rewrite Hm; ring]. }
  assert (E2 : x * x + A * x + 1 = 0).
  { apply (mul_cancel F) with x; [auto|]. transitivity (x * x * x + A * (x * x) + x); [ring|rewrite Hx; ring]. }
  transitivity (m * (x * x + A * x + 1) - x * (m * m + A * m + 1) + (x - m)); [ring|]. rewrite E1, E2. ring.
Qed.
Lemma phi2_two (A k x : F) : A * A <> 4 -> ker2 A k -> fx A x = 0 -> x <> k -> phi2x k (XF x) = XF 0.
Proof.
  intros HA [Nk Hk] Hx N. apply (proj1 (two_tors A k)) in Hk. cbn. destruct (kdec x k) as [|_]; [contradiction|]. f_equal.
  assert (N' : x - k <> 0) by (intros E; apply N; now apply (sub_eq F)).
  destruct (other_root A k x Nk Hk Hx HA) as [->|[E|[E _]]].
  - toF_eq. field. exact (neg_nz F k Nk).
  - contradiction.
  - rewrite E. field. exact N'.
Qed.
Lemma phi4_two (A k m x : F) : A * A <> 4 -> m <> 0 -> dblx A (XF k) = XF m -> dblx A (XF m) = XInf -> fx A x = 0 -> x <> m -> phi4x k (XF x) = XF 0.
Proof.
  intros HA Nm E1 E2 Hx N. pose proof (proj1 (two_tors A m) E2) as Hm.
  destruct (other_root A m x Nm Hm Hx HA) as [->|[E|[E Nx]]].
  - exact (phi4x_00 F two A HA k m Nm E1 E2).
  - contradiction.
  - pose proof (ker4_m F two A HA k m Nm E1 E2) as Ek. pose proof (ker4_nz F two A HA k m Nm E1 E2) as Nk.
    destruct (phi4x k (XF x)) as [|y] eqn:Ey.
    + apply (dm phi4x_inf two A HA k m Nm E1 E2) in Ey as [D|[D|D]]; [discriminate| |injection D; contradiction].
      injection D as ->. rewrite (proj2 (two_tors A k) Hx) in E1. discriminate.
    + cbn in Ey. destruct (kdec x k) as [|N1]; [discriminate|]. destruct (kdec (2 * (k * x)) (k * k + 1)) as [|N2]; [discriminate|]. injection Ey as <-. f_equal.
      assert (Z1 : (k * k + 1) * x - 2 * k = 0). { rewrite <- Ek. transitivity (2 * k * (m * x) - 2 * k); [ring|rewrite E; ring]. }
      rewrite Z1. assert (x - k <> 0) by (intros E0; apply N1; now apply (sub_eq F)).
      assert (2 * (k * x) - k * k - 1 <> 0) by (intros E0; apply N2; apply (sub_eq F); rewrite <- E0; ring).
      field. auto.
Qed.

(** ** Chains of degree 4 and 2 *)
Lemma chain4_inf n A q A' r' : chain4 n A q XInf = Some (A', r') -> r' = XInf.
Proof.
  revert A q. induction n as [|n IH]; intros A q; cbn [chain4]; [congruence|]. destruct (Nat.iter (2 * n) (dblx A) q); [discriminate|]. cbn [phi4x]. apply IH.
Qed.
Lemma chain4_cod n A q r s A' r' : chain4 n A q r = Some (A', r') -> exists s', chain4 n A q s = Some (A', s').
Proof.
  revert A q r s. induction n as [|n IH]; intros A q r s; cbn [chain4]; [intros E; injection E as <- _; eauto|].
  destruct (Nat.iter (2 * n) (dblx A) q); [discriminate|]. apply IH.
Qed.
Lemma chain4_00 n A q A' r' : A * A <> 4 -> (n = 0%nat \/ ord4 n A q) -> chain4 n A q (XF 0) = Some (A', r') -> r' = XF 0.
Proof.
  revert A q. induction n as [|n IH]; intros A q HA Ho; cbn [chain4]; [congruence|]. destruct Ho as [|Ho]; [lia|].
  destruct (dn ord4_S _ _ _ Ho) as (k & m & Ek & Nm & E1 & E2). rewrite Ek. rewrite (phi4x_00 F two A HA k m Nm E1 E2).
  apply IH; [exact (cod4 F two A HA k m Nm E1 E2)|]. destruct n as [|n]; [now left|right]. apply (dm next4 two A n q k HA Ho Ek).
Qed.
Lemma ord4_ker n A q : ord4 (S n) A q -> exists k m, Nat.iter (2 * n) (dblx A) q = XF k /\ m <> 0 /\ dblx A (XF k) = XF m /\ dblx A (XF m) = XInf /\ Nat.iter (2 * S n - 1) (dblx A) q = XF m.
Proof.
  intros Ho. destruct (dn ord4_S _ _ _ Ho) as (k & m & Ek & Nm & E1 & E2). exists k, m. repeat split; auto.
  replace (2 * S n - 1)%nat with (S (2 * n)) by lia. rewrite iter_S, Ek. exact E1.
Qed.
(** A point of order 2 is mapped to infinity if it is 2^(2n-1) q, otherwise to (0,0). *)
Lemma chain4_two n A q x A' r' : A * A <> 4 -> ord4 (S n) A q -> fx A x = 0 -> chain4 (S n) A q (XF x) = Some (A', r') ->
  (Nat.iter (2 * S n - 1) (dblx A) q = XF x -> r' = XInf) /\ (Nat.iter (2 * S n - 1) (dblx A) q <> XF x -> r' = XF 0).
Proof.
  intros HA Ho Hx. destruct (ord4_ker _ _ _ Ho) as (k & m & Ek & Nm & E1 & E2 & Em). rewrite Em. cbn [chain4]. rewrite Ek. intros E. split.
  - intros D. injection D as <-. replace (phi4x k (XF m)) with (@XInf F) in E; [now apply chain4_inf in E|]. symmetry.
    apply (dm phi4x_inf two A HA k m Nm E1 E2). auto.
  - intros N. rewrite (phi4_two A k m x HA Nm E1 E2 Hx) in E by congruence.
    revert E. apply chain4_00; [exact (cod4 F two A HA k m Nm E1 E2)|]. destruct n as [|n]; [now left|right]. apply (dm next4 two A n q k HA Ho Ek).
Qed.
Section Cls.
Variable SS : F -> Prop.
Hypothesis HSS : isog_class SS.
Lemma ss_ns A : SS A -> A * A <> 4. Proof. intros H. apply (ss_full4 HSS) in H. apply H. Qed.
Lemma chain4_ss n A q r A' r' : SS A -> (n = 0%nat \/ ord4 n A q) -> chain4 n A q r = Some (A', r') -> SS A'.
Proof.
  revert A q r. induction n as [|n IH]; intros A q r HA Ho; cbn [chain4]; [congruence|]. destruct Ho as [|Ho]; [lia|].
  destruct (dn ord4_S _ _ _ Ho) as (k & m & Ek & Nm & E1 & E2). rewrite Ek. apply IH.
  - apply (ss_4 HSS A); auto. exists m. auto.
  - destruct n as [|n]; [now left|right]. apply (dm next4 two A n q k (ss_ns _ HA) Ho Ek).
Qed.

(** ** Degree 3 *)
Lemma chain3_inf h A q A' r' : chain3 h A q XInf = Some (A', r') -> r' = XInf.
Proof.
  revert A q. induction h as [|h IH]; intros A q; cbn [chain3]; [congruence|]. destruct (Nat.iter h (tplx A) q); [discriminate|]. cbn [phi3x]. apply IH.
Qed.
Lemma chain3_cod h A q r s A' r' : chain3 h A q r = Some (A', r') -> exists s', chain3 h A q s = Some (A', s').
Proof.
  revert A q r s. induction h as [|h IH]; intros A q r s; cbn [chain3]; [intros E; injection E as <- _; eauto|].
  destruct (Nat.iter h (tplx A) q); [discriminate|]. apply IH.
Qed.
Lemma chain3_ss h A q r A' r' : SS A -> (h = 0%nat \/ ord3 h A q) -> chain3 h A q r = Some (A', r') -> SS A'.
Proof.
  revert A q r. induction h as [|h IH]; intros A q r HA Ho; cbn [chain3]; [congruence|]. destruct Ho as [|Ho]; [lia|].
  destruct (dn ord3_S _ _ _ Ho) as (k & Ek & Hk). rewrite Ek. apply IH.
  - apply (ss_3 HSS A); auto.
  - destruct h as [|h]; [now left|right]. apply (dm next3 two A h q k (ss_ns _ HA) Ho Ek Hk).
Qed.
(** ** The isogeny of degree 2^n, n >= 2, with the choice of model *)
Variable other : F -> F * F * F.
Hypothesis Hot : isos SS other.
Hypothesis Hor : forall A, SS A -> snd (fst (other A)) <> 0.
Variable n : nat.
Hypothesis Hn : (2 <= n)%nat.
(** The point kt = 2^(n-1) q in the chosen model; the steps of degree 4 that are left. *)
Lemma quot2_form A q r : SS A -> xord2 A n q -> exists B t0 u0 m, iso_to A B t0 u0 /\ SS B /\ m <> 0 /\ dblx B (XF m) = XInf /\
  isox t0 u0 (Nat.iter (n - 1) (dblx A) q) = XF m /\
  (if Nat.odd n then ord4 (n / 2) (A2 m) (phi2x m (isox t0 u0 q)) /\ quot2 other n A q r = chain4 (n / 2) (A2 m) (phi2x m (isox t0 u0 q)) (phi2x m (isox t0 u0 r))
   else ord4 (n / 2) B (isox t0 u0 q) /\ Nat.iter (2 * (n / 2) - 1) (dblx B) (isox t0 u0 q) = XF m /\
     quot2 other n A q r = chain4 (n / 2) B (isox t0 u0 q) (isox t0 u0 r)).
Proof.
  intros HA Ho. assert (H1 : (1 <= n)%nat) by lia. apply (dm xord2_two A n q H1) in Ho as [O1 O2]. unfold quot2.
  set (T0 := Nat.iter (n - 1) (dblx A) q) in *. destruct T0 as [|x0] eqn:ET; [contradiction|].
  assert (HM : exists B t0 u0, (if kdec x0 0 then other A else (A, 0, 1)) = (B, t0, u0) /\ iso_to A B t0 u0 /\ SS B /\ (x0 - t0) / u0 <> 0).
  { destruct (kdec x0 0) as [->|N].
    - pose proof (Hot A HA) as HI. pose proof (Hor A HA) as HR. destruct (other A) as [[B t0] u0]. cbn in HR. exists B, t0, u0. split; [auto|]. split; [auto|].
      split; [apply (ss_iso HSS A B t0 u0); auto|]. intros E. pose proof HI as [Nu _]. apply HR. transitivity (- ((0 - t0) / u0 * u0)); [field; auto|rewrite E; ring].
    - exists A, 0, 1. split; [auto|]. split; [apply iso_refl|]. split; [auto|]. intros E. apply N. transitivity ((x0 - 0) / 1); [field; apply (one_nz F)|exact E]. }
  destruct HM as (B & t0 & u0 & EM & HI & HB & Nm). rewrite EM. set (m := (x0 - t0) / u0) in *.
  assert (EI : Nat.iter (n - 1) (dblx B) (isox t0 u0 q) = XF m).
  { rewrite <- (isox_iter F two A B t0 u0 HI (ss_ns _ HA) (ss_ns _ HB)). fold T0. rewrite ET. reflexivity. }
  assert (E2 : dblx B (XF m) = XInf).
  { transitivity (isox t0 u0 (dblx A (XF x0))); [|rewrite O2; reflexivity]. symmetry. apply (isox_dblx F two A B t0 u0 HI (ss_ns _ HA) (ss_ns _ HB)). }
  exists B, t0, u0, m. split; [auto|]. split; [auto|]. split; [auto|]. split; [auto|]. split; [reflexivity|].
  unfold chain2. destruct (Nat.odd n) eqn:Eo.
  - rewrite EI. split; [|reflexivity]. apply Nat.odd_spec in Eo as [h Eh].
    assert (E3 : (n / 2 = h)%nat) by (rewrite Eh; symmetry; apply (Nat.div_unique _ 2 h 1); lia). rewrite E3.
    apply (dm next2 two B h (isox t0 u0 q) m (ss_ns _ HB)); [lia| |split; auto]. rewrite <- EI. f_equal. lia.
  - assert (Ee : Nat.even n = true) by (rewrite <- Nat.negb_odd, Eo; reflexivity). apply Nat.even_spec in Ee as [h Eh].
    assert (E3 : (n / 2 = h)%nat) by (rewrite Eh; symmetry; apply (Nat.div_unique _ 2 h 0); lia).
    assert (E4 : Nat.iter (2 * (n / 2) - 1) (dblx B) (isox t0 u0 q) = XF m) by (rewrite <- EI; f_equal; lia).
    split; [exists m; auto|]. split; [exact E4|reflexivity].
Qed.
Lemma half_pos : exists h, (n / 2 = S h)%nat.
Proof. assert (1 <= n / 2)%nat by (apply Nat.div_le_lower_bound; lia). exists (n / 2 - 1)%nat. lia. Qed.
Lemma quot2_cod A q r s A' r' : quot2 other n A q r = Some (A', r') -> exists s', quot2 other n A q s = Some (A', s').
Proof.
  unfold quot2. destruct (match Nat.iter (n - 1) (dblx A) q with XInf => _ | XF x => _ end) as [[A0 t0] u0]. unfold chain2.
  destruct (Nat.odd n); [destruct (Nat.iter (n - 1) (dblx A0) (isox t0 u0 q)); [discriminate|]|]; apply chain4_cod.
Qed.
Lemma quot2_inf A q A' r' : quot2 other n A q XInf = Some (A', r') -> r' = XInf.
Proof.
  unfold quot2. destruct (match Nat.iter (n - 1) (dblx A) q with XInf => _ | XF x => _ end) as [[A0 t0] u0]. unfold chain2. cbn [isox].
  destruct (Nat.odd n); [destruct (Nat.iter (n - 1) (dblx A0) (isox t0 u0 q)); [discriminate|]|]; apply chain4_inf.
Qed.
Lemma quot2_ss A q r A' r' : SS A -> xord2 A n q -> quot2 other n A q r = Some (A', r') -> SS A'.
Proof.
  intros HA Ho E. destruct (quot2_form A q r HA Ho) as (B & t0 & u0 & m & HI & HB & Nm & E2 & Em & HC).
  destruct (Nat.odd n).
  - destruct HC as [H1 H2]. rewrite H2 in E. revert E. apply chain4_ss; [apply (ss_2 HSS B); [auto|split; auto]|auto].
  - destruct HC as [H1 [_ H2]]. rewrite H2 in E. revert E. apply chain4_ss; auto.
Qed.
(** The kernel of the dual of the last step is generated by (0,0): every point of order 2 outside the kernel of the
    isogeny is mapped there. *)
Lemma dual2 A q r A' r' : SS A -> xord2 A n q -> dblx A r = XInf -> quot2 other n A q r = Some (A', r') ->
  (r = XInf \/ r = Nat.iter (n - 1) (dblx A) q -> r' = XInf) /\ (r <> XInf -> r <> Nat.iter (n - 1) (dblx A) q -> r' = XF 0).
Proof.
  intros HA Ho Hr E. destruct r as [|x].
  { split; [|congruence]. intros _. now apply quot2_inf in E. }
  destruct (quot2_form A q (XF x) HA Ho) as (B & t0 & u0 & m & HI & HB & Nm & E2 & Em & HC).
  assert (Hx : fx B ((x - t0) / u0) = 0).
  { apply two_tors. transitivity (isox t0 u0 (dblx A (XF x))); [|rewrite Hr; reflexivity]. symmetry. apply (isox_dblx F two A B t0 u0 HI (ss_ns _ HA) (ss_ns _ HB)). }
  assert (EQ : (XF x = Nat.iter (n - 1) (dblx A) q <-> (x - t0) / u0 = m)).
  { destruct (Nat.iter (n - 1) (dblx A) q) as [|y]; [discriminate|]. cbn [isox] in Em. injection Em as <-. pose proof HI as [Nu _]. split.
    - intros D. injection D as ->. reflexivity.
    - intros D. f_equal. transitivity ((x - t0) / u0 * u0 + t0); [toF_eq; field; auto|]. rewrite D. field; auto. }
  assert (EQ1 : (XF x = XInf \/ XF x = Nat.iter (n - 1) (dblx A) q <-> (x - t0) / u0 = m)).
  { rewrite <- EQ. split; [intros [D|D]; [discriminate|auto]|auto]. }
  rewrite EQ1, EQ. cbn [isox] in HC. set (y := (x - t0) / u0) in *. destruct half_pos as [h Eh]. rewrite Eh in HC. destruct (Nat.odd n).
  - destruct HC as [H1 H2]. rewrite H2 in E. split.
    + intros D. rewrite D in E. replace (phi2x m (XF m)) with (@XInf F) in E by (cbn; destruct (kdec m m); [auto|contradiction]). now apply chain4_inf in E.
    + intros _ N. rewrite (phi2_two B m y (ss_ns _ HB) (conj Nm E2) Hx N) in E. revert E. apply chain4_00; [|auto].
      apply (cod2 F two B (ss_ns _ HB) m (conj Nm E2)).
  - destruct HC as [H1 [E4 H2]]. rewrite H2 in E. destruct (chain4_two h B _ y A' r' (ss_ns _ HB) H1 Hx E) as [G1 G2]. rewrite E4 in G1, G2.
    split; [intros D; apply G1; now rewrite D|intros _ N; apply G2; congruence].
Qed.
Lemma zero_two A : dblx A (XF 0) = XInf. Proof. apply two_tors. unfold fx. ring. Qed.

End Cls.
(** Only points of order 3 are mapped to the kernel of the dual. *)
Lemma phi3x_dual (A k x : F) : 3 <> (0 : F) -> k <> 0 -> ker3 A k -> phi3x k (XF x) = XF (- (1) / (3 * k)) -> ker3 A x.
Proof.
  intros N3 Nk. unfold ker3. cbn [tplx phi3x]. destruct (kdec (div3 A k) 0) as [Ek|]; [|discriminate]. intros _. destruct (kdec x k) as [|Nx]; [discriminate|]. intros E. injection E as E.
  destruct (kdec (div3 A x) 0) as [|N]; [reflexivity|]. exfalso. apply N. clear N. unfold div3 in *.
  assert (Nd : x - k <> 0) by (intros E0; apply Nx; apply (sub_eq F); exact E0).
  assert (E0 : 3 * k * (x * ((k * x - 1) * (k * x - 1))) + (x - k) * (x - k) = 0).
  { transitivity (3 * k * ((x - k) * (x - k)) * (x * ((k * x - 1) * (k * x - 1)) / ((x - k) * (x - k))) + (x - k) * (x - k)); [field; auto|]. rewrite E. field. auto. }
  set (c := 3 * (x * x * x) + (4 * A + 3 * k) * (x * x) + (2 * 3 + 4 * (A * k) + 3 * (k * k)) * x + (2 * 3 * k + 4 * (A * (k * k)) + 3 * (k * k * k))).
  assert (Ec : k * (k * k) * c = 0).
  { rewrite <- E0. unfold c. transitivity (3 * k * (x * ((k * x - 1) * (k * x - 1))) + (x - k) * (x - k) + (x * x + k * x + k * k) * (3 * (k * k * (k * k)) + 4 * (A * (k * k * k)) + 2 * (3 * (k * k)) - 1)); [ring|].
    rewrite Ek. ring. }
  assert (Ec' : c = 0).
  { apply (mul_cancel F) with (k * (k * k)); [apply (mul_nz F); [auto|apply (mul_nz F); auto]|]. transitivity (k * (k * k) * c); [ring|rewrite Ec; ring]. }
  transitivity ((x - k) * c + (3 * (k * k * (k * k)) + 4 * (A * (k * k * k)) + 2 * (3 * (k * k)) - 1)); [unfold c; ring|]. rewrite Ec', Ek. ring.
Qed.
Lemma dual3 h : forall A q r A' r', A * A <> 4 -> ord3 (S h) A q -> tplx A r = XInf -> chain3 (S h) A q r = Some (A', r') ->
  (r = XInf \/ r = Nat.iter h (tplx A) q -> r' = XInf) /\
  (r <> XInf -> r <> Nat.iter h (tplx A) q -> exists A1 k, chain3 h A (tplx A q) q = Some (A1, XF k) /\ r' = XF (- (1) / (3 * k))).
Proof.
  induction h as [|h IH]; intros A q r A' r' HA Ho Hr.
  - destruct (dn ord3_S _ _ _ Ho) as (k & Ek & Hk). cbn [chain3]. rewrite Ek. cbn [Nat.iter nat_rect] in Ek. cbn in Ek. intros E. injection E as <- <-. split.
    + intros [->| ->]; [reflexivity|]. apply (dm phi3x_inf k). auto.
    + intros N1 N2. destruct r as [|x]; [contradiction|]. exists A, k. split; [cbn; congruence|]. apply (two_ker3 F two A k x); auto. congruence.
  - destruct (dn ord3_S _ _ _ Ho) as (k & Ek & Hk). assert (Hnx : ord3 (S h) (A3 A k) (phi3x k q)) by (apply (dm next3 two A h q k HA Ho Ek Hk)).
    cbn [chain3]. rewrite Ek. fold (chain3 (S h) (A3 A k) (phi3x k q) (phi3x k r)). intros E.
    assert (HT : Nat.iter h (tplx A) (tplx A q) = XF k). { rewrite <- Ek. replace (S h) with (h + 1)%nat by lia. rewrite iter_plus. reflexivity. }
    rewrite HT.
    assert (Hr' : tplx (A3 A k) (phi3x k r) = XInf).
    { rewrite <- (dm phi3_tplx two A HA k Hk), Hr. reflexivity. }
    assert (HA3 : A3 A k * A3 A k <> 4) by (apply (dm cod3 two A HA k Hk)).
    destruct (IH (A3 A k) (phi3x k q) (phi3x k r) A' r' HA3 Hnx Hr' E) as [G1 G2]. split.
    + intros D. apply G1. left. apply (dm phi3x_inf k). destruct D; auto.
    + intros N1 N2. destruct r as [|x]; [contradiction|]. assert (Nx : x <> k) by congruence.
      destruct (two_ker3 F two A k x Hk Hr Nx) as (N3 & Nk & Ex). rewrite (dm phi3_tplx two A HA k Hk).
      apply G2; [rewrite Ex; discriminate|]. rewrite Ex, <- (dm phi3_iter two A k h q HA Hk). intros D. symmetry in D.
      rewrite iter_S in Ek. destruct (Nat.iter h (tplx A) q) as [|y]; [discriminate|].
      apply (phi3x_dual A k y N3 Nk Hk) in D. unfold ker3 in D. rewrite D in Ek. discriminate.
Qed.
(** The image of a point of order 3. *)
Lemma chain3_tpl h : forall A q r A' r', A * A <> 4 -> (h = 0%nat \/ ord3 h A q) -> tplx A r = XInf -> chain3 h A q r = Some (A', r') -> tplx A' r' = XInf.
Proof.
  induction h as [|h IH]; intros A q r A' r' HA Ho Hr; cbn [chain3]; [intros E; injection E as <- <-; auto|]. destruct Ho as [|Ho]; [lia|].
  destruct (dn ord3_S _ _ _ Ho) as (k & Ek & Hk). rewrite Ek. apply IH.
  - apply (dm cod3 two A HA k Hk).
  - destruct h as [|h]; [now left|right]. apply (dm next3 two A h q k HA Ho Ek Hk).
  - rewrite <- (dm phi3_tplx two A HA k Hk), Hr. reflexivity.
Qed.
(** The last step. *)
Lemma chain3_last h : forall A q r A1 k1 A' r', A * A <> 4 -> ord3 (S h) A q -> chain3 h A (tplx A q) q = Some (A1, XF k1) ->
  chain3 (S h) A q r = Some (A', r') -> A' = A3 A1 k1.
Proof.
  induction h as [|h IH]; intros A q r A1 k1 A' r' HA Ho.
  - destruct (dn ord3_S _ _ _ Ho) as (k & Ek & Hk). cbn [chain3]. intros E. injection E as <- Eq. rewrite Ek. cbn in Ek. intros E. injection E as <- _. f_equal. congruence.
  - destruct (dn ord3_S _ _ _ Ho) as (k & Ek & Hk). assert (Hnx : ord3 (S h) (A3 A k) (phi3x k q)) by (apply (dm next3 two A h q k HA Ho Ek Hk)).
    assert (HT : Nat.iter h (tplx A) (tplx A q) = XF k). { rewrite <- Ek. replace (S h) with (h + 1)%nat by lia. rewrite iter_plus. reflexivity. }
    intros E1. cbn [chain3] in E1. rewrite HT in E1. rewrite (dm phi3_tplx two A HA k Hk) in E1. intros E2.
    change (chain3 (S (S h)) A q r) with (match Nat.iter (S h) (tplx A) q with XF k => chain3 (S h) (A3 A k) (phi3x k q) (phi3x k r) | XInf => None end) in E2.
    rewrite Ek in E2. exact (IH _ _ _ _ _ _ _ (dm cod3 two A HA k Hk) Hnx E1 E2).
Qed.
End WP.
