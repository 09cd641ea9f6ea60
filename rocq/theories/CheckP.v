(** Check_Curve over a field: what acceptance and rejection mean. *)
From Coq Require Import Znumtheory Field_theory Field.
From Verif Require Import Base Out Params Wf Fld Ops Ec Models FieldOps CurveSpec OrderSpec FldCurve GroupP MultP OrderP CountP.
Set Bullet Behavior "Strict Subproofs".

(** ** Independence of uninitialised memory, for any operations *)
Section Junk.
Variable O : fops.
Variable P : params.
Definition teq (s t : torsion O) : Prop := th O s = th O t /\ ((1 <= th O s)%nat -> tT O s = tT O t).
Lemma order_loop_teq f k : forall s t Q, teq s t ->
  teq (fst (order_loop O f k s Q)) (fst (order_loop O f k t Q)) /\ snd (order_loop O f k s Q) = snd (order_loop O f k t Q).
Proof.
  induction k as [|k IH]; intros s t Q H; cbn [order_loop]; auto. destruct (is0 O (pZ Q)); auto.
  apply IH. destruct H as [E _]. split; cbn [th tT]; auto.
Qed.
Lemma add_order_teq m s t : teq s t -> add_order O m s = add_order O m t.
Proof.
  intros [E1 E2]. unfold add_order. rewrite <- E1. destruct (th O s) as [|h] eqn:Eh.
  - rewrite !Nat.add_0_r. destruct (negb _), (negb _); reflexivity.
  - rewrite E2 by lia. reflexivity.
Qed.
Lemma keep_teq m s t : teq s t -> (if (th O m <? th O s)%nat then s else m) = (if (th O m <? th O t)%nat then t else m).
Proof.
  intros [E1 E2]. rewrite <- E1. destruct (Nat.ltb_spec (th O m) (th O s)); auto.
  destruct s as [sT sh], t as [tt' t_h]; cbn in *. subst t_h. rewrite E2 by lia. reflexivity.
Qed.
Lemma check_loop_junk j j' k : forall E m2 m3 tp, check_loop O P j k E m2 m3 tp = check_loop O P j' k E m2 m3 tp.
Proof.
  induction k as [|k IH]; intros E m2 m3 tp; cbn [check_loop]; auto.
  destruct (AC_to_AAC24 O E) as [[ap am] c]. destruct (random_point O (cA E) tp) as [[R tp1]| | | |]; cbn [bind]; auto.
  assert (T0 : teq (mkTors O j 0) (mkTors O j' 0)) by (split; cbn; auto; lia).
  pose proof (order_loop_teq (fun Q => xDBL O Q ap c) (e2 P) _ _ (xTPLe O R am ap (e3 P)) T0) as [H2 E2].
  destruct (order_loop O _ (e2 P) (mkTors O j 0) _) as [c2 q2], (order_loop O _ (e2 P) (mkTors O j' 0) _) as [c2' q2'].
  cbn [fst snd] in *. subst q2'. destruct (negb (is0 O (pZ q2))); auto.
  rewrite (add_order_teq m2 _ _ H2). destruct (proves_order P _ _); auto.
  replace (th O c2') with (th O c2) by apply H2.
  pose proof (order_loop_teq (fun Q => xTPL O Q am ap) (e3 P) _ _ (xDBLe O R ap c (th O c2)) T0) as [H3 E3].
  destruct (order_loop O _ (e3 P) (mkTors O j 0) _) as [c3 q3], (order_loop O _ (e3 P) (mkTors O j' 0) _) as [c3' q3'].
  cbn [fst snd] in *. subst q3'. destruct (negb (is0 O (pZ q3))); auto.
  rewrite (add_order_teq m3 _ _ H3). destruct (proves_order P _ _); auto.
  rewrite IH. replace (th O c2) with (th O c2') by (symmetry; apply H2).
  rewrite <- (keep_teq m3 _ _ H3), <- (keep_teq m2 _ _ H2). replace (th O c2') with (th O c2) by apply H2. reflexivity.
Qed.
Lemma Check_Curve_junk j j' E tp : Check_Curve O P j E tp = Check_Curve O P j' E tp.
Proof. apply check_loop_junk. Qed.
End Junk.

Section CC.
Variable F : fld.
Variables (unit : F) (sqrt : F -> F) (lt : F -> F -> bool) (enc : F -> list Z) (dec : list Z -> F) (rnd : tape -> out (F * tape)).
Local Notation O := (fld_ops F unit sqrt lt enc dec rnd).
Hypothesis two : (kadd k1 k1 : F) <> k0.
Local Open Scope fld_scope.
Definition kth_c := kth F.
Add Field KFc : kth_c.
Variable P : params.
Hypothesis shape : (par_p P + 1 = 2 ^ Z.of_nat (e2 P) * 3 ^ Z.of_nat (e3 P))%Z.
Hypothesis small : (Z.of_nat (e2 P) < 2 ^ 32 /\ Z.of_nat (e3 P) < 2 ^ 32)%Z.
Variable A : F.
Local Notation fx := (fx A). Local Notation on := (on A 1). Local Notation padd := (padd A 1). Local Notation pmul := (pmul A 1).
Local Notation xzp := (xzp F unit sqrt lt enc dec rnd).

Lemma is0_dec (x : F) : is0 O x = if kdec x 0 then true else false.
Proof. reflexivity. Qed.
Lemma is0_true (x : F) : is0 O x = true <-> x = 0.
Proof. rewrite is0_dec. destruct (kdec x 0); split; auto; discriminate. Qed.

(** ** Random points are on the curve *)
Lemma rhs_fx (x : F) : curve_rhs O A x = fx x.
Proof. unfold curve_rhs, CurveSpec.fx. cbn. ring. Qed.
Lemma random_point_on tp R tp' : random_point O A tp = Ok (R, tp') -> exists x y, R = @mkPt O x 1 /\ on (Aff x y).
Proof.
  unfold random_point. generalize (S (length tp)). intros f. revert tp. induction f as [|f IH]; intros tp; cbn [random_point_loop]; [discriminate|].
  destruct (o_rand O tp) as [[x t1]| | | |]; cbn [bind]; try discriminate.
  unfold fp2sqrt. cbn [o_eq o_sqr o_sqrt fld_ops].
  destruct (kdec _ _) as [E|]; [|apply IH]. intros H. injection H as <- <-. exists x, (sqrt (curve_rhs O A x)). split; auto.
  cbn [CurveSpec.on]. rewrite <- rhs_fx. rewrite <- E at 3. ring.
Qed.

(** The coefficients passed to doubling and tripling. *)
Lemma coeffs (E : curve O) : cA E = A -> cC E = 1 -> AC_to_AAC24 O E = (A + 2, A - 2, 4).
Proof. intros HA HC. unfold AC_to_AAC24. rewrite HA, HC. cbn. f_equal; [f_equal|]; ring. Qed.

Lemma one_r (x : F) : x = x * 1. Proof. ring. Qed.
Lemma one_nz : (1 : F) <> 0. Proof. apply (F_1_neq_0 (kth F)). Qed.
Lemma four_nz : (4 : F) <> 0. Proof. apply (mul_nz F); apply two. Qed.
Section Nons.
Hypothesis HA : A * A <> 4.


Notation pmul_on := (pmul_on F two A 1 HA one_nz). Notation pmul_mul := (pmul_mul F two A 1 HA one_nz).
Lemma dbl_xz Q M : on M -> xzp Q M -> xzp (xDBL O Q (A + 2) 4) (pmul 2 M).
Proof.
  intros H X. assert (E : pmul 2 M = padd M M) by (cbn; destruct M; reflexivity). rewrite E.
  apply (xDBL_ok F unit sqrt lt enc dec rnd two A 1 HA one_nz); auto using four_nz. ring.
Qed.
Lemma tpl_xz Q M : on M -> xzp Q M -> xzp (xTPL O Q (A - 2) (A + 2)) (pmul 3 M).
Proof.
  intros H X. assert (E : pmul 3 M = padd M (padd M M)) by (cbn; destruct M; reflexivity). rewrite E.
  apply (xTPL_ok F unit sqrt lt enc dec rnd two A 1 HA one_nz) with (s := 1); auto using one_nz; ring.
Qed.
Lemma iter_xz l (f : pt O -> pt O) : (forall Q M, on M -> xzp Q M -> xzp (f Q) (pmul l M)) ->
  forall n Q M, on M -> xzp Q M -> xzp (Nat.iter n f Q) (pmul (l ^ n) M).
Proof.
  intros Hf n Q M H X. induction n as [|n IH].
  - cbn. destruct M; exact X.
  - change (Nat.iter (S n) f Q) with (f (Nat.iter n f Q)). cbn [Nat.pow]. rewrite pmul_mul by auto. apply Hf; auto using pmul_on.
Qed.
Lemma xz_zero Q M : xzp Q M -> (is0 O (pZ Q) = true <-> M = Inf).
Proof.
  rewrite is0_true. unfold FldCurve.xzp. destruct M; cbn [xz]; intros [H1 H2]; split; auto; try discriminate. contradiction.
Qed.

(** What order_loop has found. *)
Definition found (l : nat) (t : torsion O) (M : point F) : Prop :=
  on M /\ has_order A 1 M (l ^ th O t) /\
  ((1 <= th O t)%nat -> xzp (tT O t) (pmul (l ^ (th O t - 1)) M)).
Lemma order_loop_found l f : (forall Q M, on M -> xzp Q M -> xzp (f Q) (pmul l M)) -> prime (Z.of_nat l) ->
  forall M, on M -> forall k t Q,
  xzp Q (pmul (l ^ th O t) M) -> ((1 <= th O t)%nat -> xzp (tT O t) (pmul (l ^ (th O t - 1)) M) /\ pmul (l ^ (th O t - 1)) M <> Inf) ->
  let '(t', Q') := order_loop O f k t Q in
  (th O t' <= th O t + k)%nat /\ xzp Q' (pmul (l ^ th O t') M) /\
  ((1 <= th O t')%nat -> xzp (tT O t') (pmul (l ^ (th O t' - 1)) M) /\ pmul (l ^ (th O t' - 1)) M <> Inf) /\
  (pmul (l ^ (th O t + k)) M = Inf -> pmul (l ^ th O t') M = Inf).
Proof.
  intros Hf Hl M HM. induction k as [|k IH]; intros t Q X Y; cbn [order_loop].
  - split; [lia|]. split; auto. split; auto. now rewrite Nat.add_0_r.
  - destruct (is0 O (pZ Q)) eqn:Z0.
    + apply (xz_zero _ _ X) in Z0. repeat split; auto; try lia; try now apply Y.
    + specialize (IH (mkTors O Q (S (th O t))) (f Q)). cbn [th tT] in IH.
      destruct (order_loop O f k _ (f Q)) as [t' Q'].
      destruct IH as (L & X' & Y' & Z').
      * cbn [Nat.pow]. rewrite pmul_mul by auto. apply Hf; auto using pmul_on.
      * intros _. replace (S (th O t) - 1)%nat with (th O t) by lia. split; auto. intros E.
        apply (xz_zero _ _ X) in E. congruence.
      * split; [lia|]. split; auto. split; auto. intros E. apply Z'. rewrite <- E. f_equal. f_equal. lia.
Qed.
Lemma order_found l f k junk M Q : (forall Q M, on M -> xzp Q M -> xzp (f Q) (pmul l M)) -> prime (Z.of_nat l) ->
  on M -> xzp Q M ->
  let '(t, Q') := order_loop O f k (mkTors O junk 0) Q in
  (is0 O (pZ Q') = true -> (th O t <= k)%nat /\ found l t M) /\
  (pmul (l ^ k) M = Inf -> is0 O (pZ Q') = true).
Proof.
  intros Hf Hl HM X. pose proof (order_loop_found l f Hf Hl M HM k (mkTors O junk 0) Q) as H. cbn [th tT] in H.
  destruct (order_loop O f k _ Q) as [t Q']. destruct H as (L & X' & Y & Zk).
  - cbn. destruct M; exact X.
  - lia.
  - split.
    + intros E. apply (xz_zero _ _ X') in E. split; [lia|]. split; auto. split.
      * apply (has_order_pow F two A 1 HA one_nz); auto. intros H1. now apply Y.
      * intros H1. now apply Y.
    + intros E. apply (xz_zero _ _ X'). apply Zk. exact E.
Qed.

(** Different coordinates: neither equal nor opposite. *)
Lemma point_equal_samex (Q R : pt O) M N : xzp Q M -> xzp R N -> on M -> on N -> M <> Inf -> N <> Inf ->
  (point_equal O Q R = true <-> samex F M N).
Proof.
  unfold point_equal, proj_equal. cbn [o_eq o_mul fld_ops]. unfold FldCurve.xzp.
  destruct M as [|x y], N as [|x' y']; try contradiction. cbn [xz]. intros [Z1 X1] [Z2 X2] H1 H2 _ _.
  destruct (kdec _ _) as [E|N]; split; auto; try discriminate.
  - intros _. rewrite X1, X2 in E.
    assert (Ex : x = x').
    { apply (mul_cancel F x x' (pZ Q * pZ R)); [now apply (mul_nz F)|]. transitivity (x * pZ Q * pZ R); [ring|]. rewrite E. ring. }
    subst x'. unfold samex. destruct (on_y_eq F A 1 one_nz x y y' H1 H2) as [->|Ey]; auto.
    right. cbn. f_equal. transitivity (y + y' - y); [ring|]. rewrite Ey. ring.
  - intros [S|S]; exfalso; apply N; cbn in S; injection S as -> _; rewrite X1, X2; ring.
Qed.
Definition tors_ok (l k : nat) (t : torsion O) : Prop :=
  (th O t <= k)%nat /\ exists M, found l t M.
(** The exponent computed by add_order is that of two independent points. *)
Lemma add_order_indep l k m c : l = 2%nat \/ l = 3%nat -> tors_ok l k m -> tors_ok l k c ->
  exists M N a b, on M /\ on N /\ (a <= k)%nat /\ (b <= k)%nat /\ has_order A 1 M (l ^ a) /\ has_order A 1 N (l ^ b) /\
    ((1 <= a)%nat -> (1 <= b)%nat -> ~ samex F (pmul (l ^ (a - 1)) M) (pmul (l ^ (b - 1)) N)) /\
    add_order O m c = (a + b)%nat.
Proof.
  intros Hl [Lm (M & HM & OM & TM)] [Lc (N & HN & ON & TN)].
  assert (triv : add_order O m c = th O m -> exists M N a b, on M /\ on N /\ (a <= k)%nat /\ (b <= k)%nat /\ has_order A 1 M (l ^ a) /\ has_order A 1 N (l ^ b) /\
    ((1 <= a)%nat -> (1 <= b)%nat -> ~ samex F (pmul (l ^ (a - 1)) M) (pmul (l ^ (b - 1)) N)) /\ add_order O m c = (a + b)%nat).
  { intros E. exists M, Inf, (th O m), 0%nat. split; [exact HM|]. split; [exact I|]. split; [exact Lm|]. split; [lia|]. split; [exact OM|]. split.
    - intros n. cbn [Nat.pow]. rewrite (pmul_inf F A 1). split; auto. intros _. exists n; lia.
    - split; [lia|]. rewrite E. lia. }
  unfold add_order in *. destruct (point_equal O (tT O c) (tT O m)) eqn:E; cbn [negb] in *; [auto|].
  exists M, N, (th O m), (th O c). repeat split; try assumption; try apply OM; try apply ON.
  intros L1 L2 Sx.
  assert (nz : forall t X, found l t X -> (1 <= th O t)%nat -> pmul (l ^ (th O t - 1)) X <> Inf).
  { intros t X (HX & OX & _) L EX. apply OX in EX. destruct EX as [q Eq].
    assert (E1 : th O t = S (th O t - 1)%nat) by lia. rewrite E1 in Eq at 2. cbn [Nat.pow] in Eq.
    assert (0 < l ^ (th O t - 1))%nat by (apply Nat.neq_0_lt_0, Nat.pow_nonzero; lia). clear - H Eq Hl. destruct Hl; subst l; destruct q; lia. }
  assert (S' : samex F (pmul (l ^ (th O c - 1)) N) (pmul (l ^ (th O m - 1)) M)).
  { destruct Sx as [Sx|Sx]; rewrite Sx; [now left|]. right. symmetry. apply neg_neg. }
  apply (point_equal_samex (tT O c) (tT O m)) in S'; auto using pmul_on; try congruence.
  - apply (nz c N); [repeat split; auto; apply ON|auto].
  - apply (nz m M); [repeat split; auto; apply OM|auto].
Qed.

Definition certificate : Prop :=
  exists M1 M2 M3 M4 a b c d,
    on M1 /\ on M2 /\ on M3 /\ on M4 /\
    has_order A 1 M1 (2 ^ a) /\ has_order A 1 M2 (2 ^ b) /\ has_order A 1 M3 (3 ^ c) /\ has_order A 1 M4 (3 ^ d) /\
    independent4 A 1 M1 M2 M3 M4 (2 ^ a) (2 ^ b) (3 ^ c) (3 ^ d) /\
    (a <= e2 P)%nat /\ (b <= e2 P)%nat /\ (c <= e3 P)%nat /\ (d <= e3 P)%nat /\
    (4 * (par_p P + 1) < 2 ^ Z.of_nat (a + b) * 3 ^ Z.of_nat (c + d))%Z.
Lemma certify m2 c2 m3 c3 : tors_ok 2 (e2 P) m2 -> tors_ok 2 (e2 P) c2 -> tors_ok 3 (e3 P) m3 -> tors_ok 3 (e3 P) c3 ->
  proves_order P (Z.of_nat (add_order O m2 c2)) (Z.of_nat (add_order O m3 c3)) = true -> certificate.
Proof.
  intros T2 T2' T3 T3' E.
  destruct (add_order_indep 2 _ _ _ ltac:(auto) T2 T2') as (M1 & M2 & a & b & H1 & H2 & La & Lb & O1 & O2 & D2 & E2).
  destruct (add_order_indep 3 _ _ _ ltac:(auto) T3 T3') as (M3 & M4 & c & d & H3 & H4 & Lc & Ld & O3 & O4 & D3 & E3).
  rewrite E2, E3 in E. apply (proves_sound P shape small) in E; try lia.
  exists M1, M2, M3, M4, a, b, c, d. repeat (split; [assumption|]). split; [|auto].
  apply (indep4 F two A 1 HA one_nz); auto.
Qed.
Lemma no_tors l k t : th O t = 0%nat -> tors_ok l k t.
Proof.
  intros E. split; [lia|]. exists Inf. split; [exact I|]. rewrite E. split; [|lia].
  intros n. cbn [Nat.pow]. rewrite (pmul_inf F A 1). split; auto. intros _. exists n; lia.
Qed.
Lemma prime_2n : prime (Z.of_nat 2). Proof. exact prime_2. Qed.
Lemma prime_3n : prime (Z.of_nat 3). Proof. exact prime_3. Qed.

Lemma check_loop_sound junk k (E : curve O) : cA E = A -> cC E = 1 -> forall m2 m3 tp tp', tors_ok 2 (e2 P) m2 -> tors_ok 3 (e3 P) m3 ->
  check_loop O P junk k E m2 m3 tp = Ok (true, tp') -> certificate.
Proof.
  intros EA EC. induction k as [|k IH]; intros m2 m3 tp tp' T2 T3; cbn [check_loop]; [discriminate|].
  rewrite (coeffs E EA EC), EA. destruct (random_point O A tp) as [[R tp1]| | | |] eqn:ER; cbn [bind]; try discriminate.
  apply random_point_on in ER as (x & y & -> & Hon). set (M := Aff x y) in *.
  assert (XR : xzp (@mkPt O x 1) M) by (exact (conj one_nz (one_r x))).
  pose proof (iter_xz 3 _ tpl_xz (e3 P) _ _ Hon XR) as X3. change (Nat.iter (e3 P) _ _) with (xTPLe O (@mkPt O x 1) (A - 2) (A + 2) (e3 P)) in X3.
  pose proof (order_found 2 (fun Q => xDBL O Q (A + 2) 4) (e2 P) junk _ _ dbl_xz prime_2n (pmul_on _ _ Hon) X3) as HL.
  destruct (order_loop O _ (e2 P) _ _) as [c2 q2]. destruct HL as [F2 _]. destruct (is0 O (pZ q2)) eqn:Z2; cbn [negb]; [|discriminate].
  destruct (F2 eq_refl) as [L2 Fd2].
  assert (T2' : tors_ok 2 (e2 P) c2) by (split; eauto).
  destruct (proves_order P (Z.of_nat (add_order O m2 c2)) (Z.of_nat (th O m3))) eqn:E1.
  { intros _. apply (certify m2 c2 m3 (mkTors O junk 0)); auto using no_tors.
    rewrite <- E1. f_equal. unfold add_order. cbn [th]. destruct (negb _); lia. }
  assert (Xd : xzp (xDBLe O (@mkPt O x 1) (A + 2) 4 (th O c2)) (pmul (2 ^ th O c2) M)) by (apply (iter_xz 2 _ dbl_xz); auto).
  pose proof (order_found 3 (fun Q => xTPL O Q (A - 2) (A + 2)) (e3 P) junk _ _ tpl_xz prime_3n (pmul_on _ _ Hon) Xd) as HL.
  destruct (order_loop O _ (e3 P) _ _) as [c3 q3]. destruct HL as [F3 _]. destruct (is0 O (pZ q3)) eqn:Z3; cbn [negb]; [|discriminate].
  destruct (F3 eq_refl) as [L3 Fd3].
  assert (T3' : tors_ok 3 (e3 P) c3) by (split; eauto).
  destruct (proves_order P _ (Z.of_nat (add_order O m3 c3))) eqn:E3.
  { intros _. exact (certify m2 c2 m3 c3 T2 T2' T3 T3' E3). }
  apply IH; destruct (_ <? _)%nat; auto.
Qed.
Theorem check_sound junk (E : curve O) tp tp' : cA E = A -> cC E = 1 -> Check_Curve O P junk E tp = Ok (true, tp') -> certificate.
Proof. intros EA EC. apply check_loop_sound; auto; now apply no_tors. Qed.

(** p + 1 kills every point: never rejected. *)
Lemma check_loop_complete junk k (E : curve O) : cA E = A -> cC E = 1 ->
  (forall M, on M -> pmul (2 ^ e2 P * 3 ^ e3 P) M = Inf) -> forall m2 m3 tp tp',
  check_loop O P junk k E m2 m3 tp <> Ok (false, tp').
Proof.
  intros EA EC K. induction k as [|k IH]; intros m2 m3 tp tp'; cbn [check_loop]; [discriminate|].
  rewrite (coeffs E EA EC), EA. destruct (random_point O A tp) as [[R tp1]| | | |] eqn:ER; cbn [bind]; try discriminate.
  apply random_point_on in ER as (x & y & -> & Hon). set (M := Aff x y) in *.
  assert (XR : xzp (@mkPt O x 1) M) by (exact (conj one_nz (one_r x))).
  pose proof (iter_xz 3 _ tpl_xz (e3 P) _ _ Hon XR) as X3. change (Nat.iter (e3 P) _ _) with (xTPLe O (@mkPt O x 1) (A - 2) (A + 2) (e3 P)) in X3.
  pose proof (order_found 2 (fun Q => xDBL O Q (A + 2) 4) (e2 P) junk _ _ dbl_xz prime_2n (pmul_on _ _ Hon) X3) as HL.
  destruct (order_loop O _ (e2 P) _ _) as [c2 q2]. destruct HL as [F2 G2]. rewrite G2 in * by (rewrite <- pmul_mul by auto; apply K; auto). cbn [negb].
  destruct (F2 eq_refl) as [L2 (_ & O2 & _)].
  destruct (proves_order P _ _); [discriminate|].
  assert (Xd : xzp (xDBLe O (@mkPt O x 1) (A + 2) 4 (th O c2)) (pmul (2 ^ th O c2) M)) by (apply (iter_xz 2 _ dbl_xz); auto).
  pose proof (order_found 3 (fun Q => xTPL O Q (A - 2) (A + 2)) (e3 P) junk _ _ tpl_xz prime_3n (pmul_on _ _ Hon) Xd) as HL.
  destruct (order_loop O _ (e3 P) _ _) as [c3 q3]. destruct HL as [_ G3]. rewrite G3.
  - cbn [negb]. destruct (proves_order P _ _); [discriminate|]. apply IH.
  - rewrite (pmul_swap F two A 1 HA one_nz) by auto. apply O2. apply Nat.divide_refl.
Qed.
Theorem check_complete junk (E : curve O) tp tp' : cA E = A -> cC E = 1 ->
  (forall M, on M -> pmul (2 ^ e2 P * 3 ^ e3 P) M = Inf) -> Check_Curve O P junk E tp <> Ok (false, tp').
Proof. intros EA EC K. now apply check_loop_complete. Qed.

(** Number of points *)
Theorem certificate_count l : certificate -> all_points A 1 l -> hasse (par_p P) (Z.of_nat (length l)) ->
  Z.of_nat (length l) = ((par_p P + 1) * (par_p P + 1))%Z.
Proof.
  intros (M1 & M2 & M3 & M4 & a & b & c & d & H1 & H2 & H3 & H4 & O1 & O2 & O3 & O4 & Ind & La & Lb & Lc & Ld & L) Hl Hh.
  apply (hasse_order P shape (Z.of_nat (a + b)) (Z.of_nat (c + d))); auto; try lia.
  assert (D : Nat.divide (2 ^ a * 2 ^ b * (3 ^ c * 3 ^ d)) (length l)).
  { apply (count F two A 1 HA one_nz M1 M2 M3 M4); auto; try (apply Nat.neq_0_lt_0, Nat.pow_nonzero; lia).
    - apply O1, Nat.divide_refl.
    - apply O2, Nat.divide_refl.
    - apply O3, Nat.divide_refl.
    - apply O4, Nat.divide_refl. }
  destruct D as [q ->]. exists (Z.of_nat q). rewrite Nat2Z.inj_mul. f_equal.
  rewrite <- !Nat.pow_add_r, Nat2Z.inj_mul, !Nat2Z.inj_pow. reflexivity.
Qed.
End Nons.

(** ** Singular coefficients are never accepted *)
Section Sing.
Variable s : F.
Hypothesis Hs : s * s = 1.
Hypothesis HAs : A = 2 * s.
Hypothesis e3_pos : (1 <= e3 P)%nat.
Lemma s_nz : s <> 0.
Proof. intros E. apply (F_1_neq_0 (kth F)). rewrite <- Hs, E. ring. Qed.
Definition nd (Q : pt O) : F := (pX Q : F) + s * pZ Q.
Lemma dbl_sing (Q : pt O) : let R := xDBL O Q (A + 2) 4 in let n := nd Q in let X := pX Q : F in let Z := pZ Q : F in
  pX R = 4 * (n * n * ((X - s * Z) * (X - s * Z))) /\ pZ R = 4 * 4 * (X * Z * (n * n)).
Proof.
  destruct Q as [X Z]. cbv zeta. unfold nd. rewrite HAs. cbn [xDBL pX pZ fld_ops o_msub o_madd o_sqr o_mul].
  split; cbn; ring [Hs].
Qed.
Lemma tpl_sing (Q : pt O) : let R := xTPL O Q (A - 2) (A + 2) in let n := nd Q in let n6 := n * n * n * (n * n * n) in
  let X := pX Q : F in let Z := pZ Q : F in
  pX R = 2 * 4 * 4 * (X * ((X - 3 * (s * Z)) * (X - 3 * (s * Z))) * n6) /\
  pZ R = 2 * 4 * 4 * (Z * ((3 * X - s * Z) * (3 * X - s * Z)) * n6).
Proof.
  destruct Q as [X Z]. cbv zeta. unfold nd. rewrite HAs. split; cbn; ring [Hs].
Qed.
Definition clean (Q : pt O) : Prop := nd Q = 0 -> (pZ Q : F) = 0.
Lemma pow4_z (x : F) : x * x * (x * x) = 0 -> x = 0.
Proof. intros E. apply (sqr_z F), (sqr_z F). exact E. Qed.
Lemma dbl_clean Q : clean (xDBL O Q (A + 2) 4).
Proof.
  unfold clean. destruct (dbl_sing Q) as [EX EZ]. cbv zeta in EX, EZ. unfold nd at 1. rewrite EX, EZ. intros E.
  assert (N : nd Q * nd Q * (nd Q * nd Q) = 0).
  { apply (mul_cancel F _ _ 4 four_nz). transitivity (4 * (nd Q * nd Q * (((pX Q : F) - s * pZ Q) * ((pX Q : F) - s * pZ Q))) + s * (4 * 4 * ((pX Q : F) * pZ Q * (nd Q * nd Q)))).
    - unfold nd. ring [Hs].
    - rewrite E. ring. }
  apply pow4_z in N. rewrite N. ring.
Qed.
Lemma tpl_clean Q : clean (xTPL O Q (A - 2) (A + 2)).
Proof.
  unfold clean. destruct (tpl_sing Q) as [EX EZ]. cbv zeta in EX, EZ. unfold nd at 1. rewrite EX, EZ. intros E.
  assert (N : nd Q * nd Q * nd Q * (nd Q * nd Q * nd Q) * (nd Q * nd Q * nd Q) = 0).
  { apply (mul_cancel F _ _ (2 * 4 * 4)); [repeat apply (mul_nz F); auto using four_nz|]. transitivity (0 : F); [|ring]. rewrite <- E. unfold nd. ring [Hs]. }
  apply (mul_z F) in N as [N|N].
  - rewrite N. ring.
  - apply (mul_z F) in N as [N|N]; [apply (sqr_z F) in N|]; rewrite N; ring.
Qed.
Lemma order_loop_sing f : (forall Q, clean (f Q)) -> forall k t Q Q0,
  (th O t = 0%nat -> Q = Q0) -> (clean Q \/ th O t = 0%nat) ->
  ((1 <= th O t)%nat -> (pZ (tT O t) : F) <> 0 /\ Q = f (tT O t) /\ (clean (tT O t) \/ (th O t = 1%nat /\ tT O t = Q0))) ->
  let '(t', Q') := order_loop O f k t Q in
  (th O t' <= th O t + k)%nat /\
  ((1 <= th O t')%nat -> (pZ (tT O t') : F) <> 0 /\ Q' = f (tT O t') /\ (clean (tT O t') \/ (th O t' = 1%nat /\ tT O t' = Q0))).
Proof.
  intros Hf. induction k as [|k IH]; intros t Q Q0 H0 H1 H2; cbn [order_loop].
  - split; [lia|auto].
  - destruct (is0 O (pZ Q)) eqn:Z0; [split; [lia|auto]|].
    specialize (IH (mkTors O Q (S (th O t))) (f Q) Q0). cbn [th tT] in IH.
    destruct (order_loop O f k _ (f Q)) as [t' Q']. destruct IH as [L R].
    + discriminate.
    + left. apply Hf.
    + intros _. split; [|split; auto].
      * intros E. apply is0_true in E. congruence.
      * destruct H1 as [H1|H1]; auto.
    + split; [lia|auto].
Qed.
Definition ok2 (t : torsion O) : Prop := (th O t <= e2 P)%nat /\ ((1 <= th O t)%nat -> (pX (tT O t) : F) = 0).
Definition ok3 (t : torsion O) : Prop :=
  (th O t <= e3 P)%nat /\ ((1 <= th O t)%nat -> 3 * (pX (tT O t) : F) = s * pZ (tT O t) \/ th O t = 1%nat).
Lemma find2 junk Q : clean Q -> let '(t, Q') := order_loop O (fun Q => xDBL O Q (A + 2) 4) (e2 P) (mkTors O junk 0) Q in
  is0 O (pZ Q') = true -> ok2 t.
Proof.
  intros HQ. pose proof (order_loop_sing _ dbl_clean (e2 P) (mkTors O junk 0) Q Q) as H. cbn [th tT] in H.
  destruct (order_loop O _ _ _ _) as [t Q']. destruct H as [L R]; auto; [lia|]. intros Z0. split; [exact L|]. intros H1.
  destruct (R H1) as (Nz & -> & C). apply is0_true in Z0. rewrite (proj2 (dbl_sing (tT O t))) in Z0.
  assert (Cl : clean (tT O t)) by (destruct C as [C|[_ ->]]; auto).
  apply (mul_z F) in Z0 as [Z0|Z0]; [exfalso; revert Z0; apply (mul_nz F); apply four_nz|].
  apply (mul_z F) in Z0 as [Z0|Z0].
  - apply (mul_z F) in Z0 as [Z0|Z0]; auto. contradiction.
  - apply (sqr_z F) in Z0. apply Cl in Z0. contradiction.
Qed.
Lemma find3 junk Q : let '(t, Q') := order_loop O (fun Q => xTPL O Q (A - 2) (A + 2)) (e3 P) (mkTors O junk 0) Q in
  is0 O (pZ Q') = true -> ok3 t.
Proof.
  pose proof (order_loop_sing _ tpl_clean (e3 P) (mkTors O junk 0) Q Q) as H. cbn [th tT] in H.
  destruct (order_loop O _ _ _ _) as [t Q']. destruct H as [L R]; auto; [lia|]. intros Z0. split; [exact L|]. intros H1.
  destruct (R H1) as (Nz & -> & C). apply is0_true in Z0. rewrite (proj2 (tpl_sing (tT O t))) in Z0.
  destruct C as [Cl|[C _]]; [|now right]. left.
  apply (mul_z F) in Z0 as [Z0|Z0]; [exfalso; revert Z0; repeat apply (mul_nz F); auto using four_nz|].
  apply (mul_z F) in Z0 as [Z0|Z0].
  - apply (mul_z F) in Z0 as [Z0|Z0]; [contradiction|]. apply (sqr_z F) in Z0. now apply (sub_eq F).
  - assert (N : nd (tT O t) = 0).
    { apply (sqr_z F) in Z0. apply (mul_z F) in Z0 as [Z0|Z0]; auto. now apply (sqr_z F). }
    apply Cl in N. contradiction.
Qed.
Lemma add2 m c : ok2 m -> ok2 c -> (add_order O m c <= e2 P)%nat.
Proof.
  intros [L1 H1] [L2 H2]. unfold add_order. destruct (point_equal O (tT O c) (tT O m)) eqn:E; cbn [negb]; auto.
  destruct (th O m) as [|hm]; [lia|]. destruct (th O c) as [|hc]; [lia|]. exfalso.
  unfold point_equal, proj_equal in E. cbn [o_eq o_mul fld_ops] in E. rewrite H1, H2 in E by lia.
  destruct (kdec _ _) as [|N]; [discriminate|]. apply N. ring.
Qed.
Lemma add3 m c : ok3 m -> ok3 c -> (add_order O m c <= e3 P + 1)%nat.
Proof.
  intros [L1 H1] [L2 H2]. unfold add_order. destruct (point_equal O (tT O c) (tT O m)) eqn:E; cbn [negb]; [lia|].
  destruct (le_lt_dec 1 (th O m)) as [G1|]; [|lia]. destruct (le_lt_dec 1 (th O c)) as [G2|]; [|lia].
  destruct (H1 G1) as [X1|]; [|lia]. destruct (H2 G2) as [X2|]; [|lia]. exfalso.
  unfold point_equal, proj_equal in E. cbn [o_eq o_mul fld_ops] in E.
  destruct (kdec _ _) as [|N]; [discriminate|]. apply N.
  assert (S1 : forall X Z : F, 3 * X = s * Z -> Z = 3 * (s * X)).
  { intros X Z EQ. transitivity (s * (s * Z)); [ring [Hs]|]. rewrite <- EQ. ring. }
  pose proof (S1 _ _ X1) as Y1. pose proof (S1 _ _ X2) as Y2. clear - Y1 Y2. set (x1 := pX (tT O m) : F) in *. set (x2 := pX (tT O c) : F) in *.
  change (x2 * (pZ (tT O m) : F) = x1 * (pZ (tT O c) : F)). rewrite Y1, Y2. ring.
Qed.
Lemma not_proved a b : (a <= e2 P)%nat -> (b <= e3 P + 1)%nat -> proves_order P (Z.of_nat a) (Z.of_nat b) = false.
Proof.
  intros Ha Hb. apply not_true_is_false. intros E. apply (proves_lt P small) in E; [|lia..]. unfold bound in E. lia.
Qed.
Lemma check_loop_sing junk k (E : curve O) : cA E = A -> cC E = 1 -> forall m2 m3 tp tp', ok2 m2 -> ok3 m3 ->
  check_loop O P junk k E m2 m3 tp <> Ok (true, tp').
Proof.
  intros EA EC. induction k as [|k IH]; intros m2 m3 tp tp' T2 T3; cbn [check_loop]; [discriminate|].
  rewrite (coeffs E EA EC), EA. destruct (random_point O A tp) as [[R tp1]| | | |] eqn:ER; cbn [bind]; try discriminate.
  assert (C : clean (xTPLe O R (A - 2) (A + 2) (e3 P))).
  { unfold xTPLe. destruct (e3 P) as [|n]; [lia|]. apply tpl_clean. }
  pose proof (find2 junk _ C) as F2.
  destruct (order_loop O _ (e2 P) _ _) as [c2 q2]. destruct (is0 O (pZ q2)) eqn:Z2; cbn [negb]; [|discriminate].
  specialize (F2 eq_refl). rewrite not_proved; [|apply add2; auto|destruct T3; lia].
  pose proof (find3 junk (xDBLe O R (A + 2) 4 (th O c2))) as F3.
  destruct (order_loop O _ (e3 P) _ _) as [c3 q3]. destruct (is0 O (pZ q3)) eqn:Z3; cbn [negb]; [|discriminate].
  specialize (F3 eq_refl). rewrite not_proved; [|apply add2; auto|apply add3; auto].
  apply IH; destruct (_ <? _)%nat; auto.
Qed.
End Sing.
Theorem check_singular junk (E : curve O) tp tp' : (1 <= e3 P)%nat -> cA E = A -> cC E = 1 -> A * A = 4 ->
  Check_Curve O P junk E tp <> Ok (true, tp').
Proof.
  intros H3 EA EC H4. assert (Hs : (A / 2) * (A / 2) = 1) by (transitivity ((A * A) / 4); [field; repeat split; first [exact two|exact four_nz]|rewrite H4; field; repeat split; first [exact two|exact four_nz]]).
  apply (check_loop_sing (A / 2) Hs); auto; try (split; cbn; lia). field. exact two.
Qed.
End CC.
