(** Hasse's theorem for Montgomery curves over a field with p^2 elements, by Manin's method (proofs only, no code of /repo is modelled here). *)
From Coq Require Import Field Znumtheory Permutation.
From Verif Require Import Base Fermat Out Params Ops Ec Models Fld FieldOps CurveSpec IsogSpec ModelSpec XSpec WalkSpec OrderSpec FldCurve GroupP MultP IsoP FldIsog FldModels
  XLine XIso Strategy XChain CheckP XIsog WalkP OrderP CountP SquareP KumP Poly RatFun PolyEv Manin XSeq.
Set Bullet Behavior "Strict Subproofs".

Section Ha.
Variable F : fld.
Hypothesis two : (kadd k1 k1 : F) <> k0.
Variable elems : list F.
Hypothesis ND : NoDup elems.
Hypothesis Hall : forall x : F, In x elems.
Variables p m : nat.
Hypothesis Hp : prime (Z.of_nat p).
Hypothesis Cp : (kn p : F) = k0.
Hypothesis Hq : length elems = (p * p)%nat.
Hypothesis Hm : (p * p = 2 * m + 1)%nat.
Notation K := (RF F).
Definition prth45 := pring F.
Add Ring PR45 : prth45.
Definition kth45 := kth F.
Add Field KF45 : kth45.
Definition kth46 := kth (RF F).
Add Field KF46 : kth46.
Notation X := (pr F px).
Notation q := (p * p)%nat.
Lemma m_pos : (1 <= m)%nat. Proof. pose proof (prime_ge_2 _ Hp). assert (2 <= p)%nat by lia. assert (2 * 2 <= p * p)%nat by (apply Nat.mul_le_mono; lia). lia. Qed.
Lemma twoK : (kadd k1 k1 : K) <> k0. Proof. apply (two' F K (cst F) (cst_hom F) two). Qed.
Lemma CpK : (kn p : K) = k0.
Proof. rewrite <- (hkn F K (cst F) (cst_hom F)), Cp. apply (h0 F K (cst F) (cst_hom F)). Qed.
Lemma frobK : fhom (fun x : K => kpow x q). Proof. apply frob_hom; auto. apply CpK. Qed.
Lemma cst_q (c : F) : kpow (cst F c) q = cst F c.
Proof. rewrite <- (hkpow F K (cst F) (cst_hom F)). f_equal. rewrite <- Hq. now apply fermat_F. Qed.
Notation Y := (pw px q : poly F).

Section Curve.
Variable A : F.
Hypothesis HA : kmul A A <> (4%F).
Notation AK := (cst F A).
Definition fA : poly F := (px * px * px + pC A * (px * px) + px)%P.
Definition sA : poly F := pw fA m.
Notation BK := (pr F fA).
Lemma HAK : kmul AK AK <> (4%F). Proof. exact (hns F K (cst F) (cst_hom F) A HA). Qed.
Lemma at_fA a : at_ fA a = fx A a.
Proof. unfold fA, fx. rewrite !ev_a, !ev_m, !ev_x, ev_C by apply id_hom. reflexivity. Qed.
Lemma sz_fA : sz F fA = 4%nat /\ lc F fA = k1.
Proof.
  destruct (sz_m F px px (x_nz F) (x_nz F)) as (N2 & S2 & L2). destruct (sz_m F _ px N2 (x_nz F)) as (N3 & S3 & L3). rewrite sz_x in *. rewrite lc_x in *.
  assert (S4 : (sz F (pC A * (px * px) + px)%P < sz F (px * px * px)%P)%nat).
  { apply Nat.le_lt_trans with 3%nat; [|lia]. apply sz_a; [|rewrite sz_x; lia]. pose proof (sz_mb F (pC A) (px * px)%P 1 3) as B.
    assert (sz F (pC A * (px * px))%P <= 1 + 3 - 1)%nat; [|lia]. apply B; [|lia]. apply sz_le. intros [|i] Hi; [lia|]. now rewrite cf_C. }
  destruct (sz_lt F _ _ S4) as [S5 L5]. replace fA with (px * px * px + (pC A * (px * px) + px))%P by (unfold fA; ring). rewrite S5, L5. split; [lia|]. rewrite L3, L2. ring.
Qed.
Lemma fA_nz : fA <> pO. Proof. apply lc_1_nz, sz_fA. Qed.
Lemma HBK : BK <> k0. Proof. apply pr_nz, fA_nz. Qed.
Lemma pr_fA : BK = fx AK X.
Proof. unfold fA, fx. rewrite !pr_add, !pr_mul. reflexivity. Qed.
Lemma fA_q : (fA * (sA * sA) = Y * Y * Y + pC A * (Y * Y) + Y)%P.
Proof.
  transitivity (pw fA q). { rewrite Hm. replace (2 * m + 1)%nat with (1 + (m + m))%nat by lia. rewrite !pw_add. cbn [pw]. unfold sA. ring. }
  apply (pr_inj F). rewrite pr_w. change (pr F fA) with BK. rewrite pr_fA. unfold fx. destruct frobK as (F1 & F2 & F3).
  rewrite !F2, !F3, cst_q, !pr_add, !pr_mul. rewrite !pr_w. reflexivity.
Qed.
Definition Qg : point K := Aff X k1.
Definition P0 (y : poly F) : point K := Aff (pr F Y) (pr F y).
Lemma Qg_on : on AK BK Qg. Proof. unfold on, Qg. rewrite pr_fA. match goal with |- ?a = ?b => change (@eq (Fld.K K) a b) end. ring. Qed.
Definition sgn (y : poly F) : Prop := y = sA \/ y = po sA.
Lemma P0_on y : sgn y -> on AK BK (P0 y).
Proof.
  intros H. unfold on, P0. rewrite <- !pr_mul. assert (E : (fA * (y * y) = fA * (sA * sA))%P) by (destruct H as [->| ->]; ring). rewrite E, fA_q.
  unfold fx. rewrite !pr_add, !pr_mul. reflexivity.
Qed.
Lemma P0_neg y : neg (P0 y) = P0 (po y). Proof. unfold P0. cbn [neg]. now rewrite pr_opp. Qed.
(** x-coordinates of P0 + n Q for the two choices of the sign of P0 *)
Definition xs (y : poly F) (n : nat) : xl K := xof (pseq K AK BK (P0 y) Qg n).
Lemma xs_XT y n : sgn y -> XT K AK (xs y (S n)) (XF X) (xs y (S (S n))) (xs y n).
Proof. intros H. apply (pseq_XT K twoK AK BK (P0 y) Qg n HAK HBK (P0_on y H) Qg_on). Qed.
Lemma xs_XT0 y : sgn y -> XT K AK (xs y 0) (XF X) (xs y 1) (xs (po y) 1).
Proof. intros H. pose proof (pseq_XT0 K twoK AK BK (P0 y) Qg HAK HBK (P0_on y H) Qg_on) as T. rewrite P0_neg in T. exact T. Qed.
Lemma xs_0 y : xs y 0 = XF (pr F Y). Proof. reflexivity. Qed.
Lemma nude_pr (P : poly F) : nu (pr F P) = P /\ de (pr F P) = pI.
Proof. apply mk_low. split; [exists pO, pI; ring|apply lc_I]. Qed.
Lemma sz_Y : sz F Y = S q /\ Y <> pO.
Proof. destruct (pw_sz F px q (x_nz F)) as (N & -> & _). rewrite sz_x. split; [lia|exact N]. Qed.
(** ** The classes of elements *)
Definition b0 a : bool := if kdec (fx A a) k0 then true else false.
Definition bp a : bool := if kdec (kpow (fx A a) m) k1 then true else false.
Definition l0 := filter b0 elems.
Definition lr := filter (fun a => negb (b0 a)) elems.
Definition lp := filter bp lr.
Definition lm := filter (fun a => negb (bp a)) lr.
Lemma prodX_filter (b : F -> bool) l : prodX l = pm (prodX (filter b l)) (prodX (filter (fun a => negb (b a)) l)).
Proof. induction l as [|a l IH]; cbn [filter prodX]; [ring|]. destruct (b a); cbn [negb prodX]; rewrite IH; ring. Qed.
Notation w0 := (prodX l0). Notation wp := (prodX lp). Notation wm := (prodX lm).
Lemma w_split : (Y - px = w0 * (wp * wm))%P.
Proof. rewrite <- Hq, (all_roots F elems ND Hall). rewrite (prodX_filter b0 elems). f_equal. apply prodX_filter. Qed.
Lemma in_l0 a : In a l0 <-> fx A a = k0.
Proof. unfold l0. rewrite filter_In. unfold b0. destruct (kdec (fx A a) k0); cbn; split; auto; try (intros [_ X0]; discriminate); try (intros X0; contradiction); intros X0; split; auto. Qed.
Lemma in_lr a : In a lr <-> fx A a <> k0.
Proof. unfold lr. rewrite filter_In. unfold b0. destruct (kdec (fx A a) k0); cbn; split; auto; try (intros [_ X0]; discriminate); try (intros X0; contradiction); intros X0; split; auto. Qed.
Lemma in_lp a : In a lp <-> fx A a <> k0 /\ kpow (fx A a) m = k1.
Proof. unfold lp. rewrite filter_In, in_lr. unfold bp. destruct (kdec (kpow (fx A a) m) k1); cbn; split; intros [u v]; split; auto; try discriminate; try contradiction. Qed.
Lemma in_lm a : In a lm <-> fx A a <> k0 /\ kpow (fx A a) m <> k1.
Proof. unfold lm. rewrite filter_In, in_lr. unfold bp. destruct (kdec (kpow (fx A a) m) k1); cbn; split; intros [u v]; split; auto; try discriminate; try contradiction. Qed.
Lemma nd_l0 : NoDup l0. Proof. now apply NoDup_filter. Qed.
Lemma nd_lp : NoDup lp. Proof. now repeat apply NoDup_filter. Qed.
Lemma nd_lm : NoDup lm. Proof. now repeat apply NoDup_filter. Qed.
Lemma len_split : (length l0 + length lp + length lm = q)%nat.
Proof.
  rewrite <- Hq. pose proof (filter_len b0 elems) as E1. fold l0 lr in E1. pose proof (filter_len bp lr) as E2. fold lp lm in E2. lia.
Qed.
Lemma double_root a : fx A a = k0 -> (kadd (kadd (3 * (a * a)) (2 * (A * a))) 1 <> 0)%F.
Proof.
  intros E E2. unfold fx in E. destruct (kdec a k0) as [->|N].
  - apply (one_nz0 F). rewrite <- E2. ring.
  - assert (E1 : (a * a + A * a + 1 = 0)%F). { apply (mul_cancel F) with a; auto. transitivity (a * a * a + A * (a * a) + a)%F; [ring|]. rewrite E. ring. }
    assert (E3 : (a * a = 1)%F). { transitivity (3 * (a * a) + 2 * (A * a) + 1 - 2 * (a * a + A * a + 1) + 1)%F; [ring|]. rewrite E1, E2. ring. }
    assert (E4 : (A * a = - (2))%F). { transitivity (a * a + A * a + 1 - a * a - 1)%F; [ring|]. rewrite E1, E3. ring. }
    apply HA. transitivity (A * a * (A * a))%F; [transitivity (A * A * (a * a))%F; [rewrite E3; ring|ring]|]. rewrite E4. ring.
Qed.
(** ** x(P0 - Q) in lowest terms *)
Lemma base : exists N' : poly F, cop F N' (w0 * (wp * wp))%P /\ sz F N' = (length l0 + 2 * length lp + 2)%nat /\
  xs (po sA) 1 = XF (mkr F N' (w0 * (wp * wp))%P : K) /\ lc F (w0 * (wp * wp))%P = k1 /\ sz F (w0 * (wp * wp))%P = (length l0 + 2 * length lp + 1)%nat.
Proof.
  pose proof m_pos as M1. pose proof (fun l => prodX_mon F l) as PM.
  destruct (PM l0) as (N0 & S0 & L0). destruct (PM lp) as (Np & Sp & Lp). destruct (PM lm) as (Nm & Sm & Lm). clear PM.
  assert (D1 : dvd F wm (sA + 1)%P).
  { apply roots_dvd; [apply nd_lm|]. intros a Ha. apply in_lm in Ha as [Ha1 Ha2]. rewrite ev_a, ev_1 by apply id_hom. unfold sA. rewrite ev_w, at_fA by apply id_hom.
    destruct (euler_pm F elems ND Hall m ltac:(lia) _ Ha1) as [E|E]; [contradiction|]. rewrite E. ring. }
  assert (D2 : dvd F w0 fA).
  { apply roots_dvd; [apply nd_l0|]. intros a Ha. apply in_l0 in Ha. now rewrite at_fA. }
  destruct D1 as [si Hsi], D2 as [f' Hf'].
  set (dn := (w0 * (wp * wp))%P). set (N' := (f' * (si * si) - (pC A + Y + px) * dn)%P).
  destruct (sz_m F wp wp Np Np) as (Npp & Spp & Lpp). destruct (sz_m F w0 _ N0 Npp) as (Nd & Sd & Ld). fold dn in Nd, Sd, Ld.
  exists N'. split; [|split; [|split; [|split]]].
  - apply cop_sym. assert (VS : forall a, kmul (at_ wm a) (at_ si a) = kadd (kpow (fx A a) m) k1).
    { intros a. pose proof (f_equal (fun P => at_ P a) Hsi) as E. cbn beta in E. rewrite ev_a, ev_1, ev_m in E by apply id_hom. unfold sA in E. rewrite ev_w, at_fA in E by apply id_hom. rewrite E. ring. }
    assert (VF : forall a, kmul (at_ f' a) (at_ w0 a) = fx A a).
    { intros a. rewrite <- at_fA, <- ev_m by apply id_hom. f_equal. symmetry. exact Hf'. }
    assert (VN : forall a, at_ dn a = k0 -> at_ f' a <> k0 -> at_ si a <> k0 -> at_ N' a <> k0).
    { intros a E N1 N2 E2. unfold N' in E2. rewrite ev_s, ev_m, (ev_m F F idF id_hom si), (ev_m F F idF id_hom _ dn), E in E2 by apply id_hom.
      apply (mul_nz F (at_ f' a) (kmul (at_ si a) (at_ si a))); [auto|apply (mul_nz F); auto|]. rewrite <- E2. ring. }
    assert (Z0 : forall a, fx A a = k0 -> kpow (fx A a) m = k0) by (intros a ->; apply kpow_0; lia).
    apply cop_m; [|apply cop_m]; apply cop_prodX; intros a Ha; apply VN.
    + unfold dn. rewrite ev_m by apply id_hom. rewrite (proj2 (prodX_at F l0 a)) by auto. ring.
    + intros E. apply in_l0 in Ha as Ha'. destruct (factor F f' a E) as [r Hr].
      destruct (factor F w0 a (proj2 (prodX_at F l0 a) Ha)) as [r' Hr']. apply (double_root a Ha').
      assert (E5 : (r * r' * (px - pC a) = px * px + pC (kadd a A) * px + pC (kadd (kadd (kmul a a) (kmul A a)) k1))%P).
      { apply (pcancel F _ _ (px - pC a)%P (lin_nz F a)). transitivity fA; [rewrite Hf', Hr, Hr'; ring|].
        transitivity (fA - pC (fx A a))%P; [rewrite Ha', C_0; ring|]. unfold fA, fx. rewrite !C_add, !C_mul. change (pC (k1 : F)) with (pI : poly F). ring. }
      pose proof (f_equal (fun P => at_ P a) E5) as E6. cbn beta in E6. rewrite !ev_a, !ev_m, at_lin, !ev_x, !ev_C in E6 by apply id_hom.
      transitivity (kmul (kmul (at_ r a) (at_ r' a)) (ksub a a)); [symmetry; etransitivity; [exact E6|]; unfold idF; ring|ring].
    + intros E. apply in_l0 in Ha as Ha'. pose proof (VS a) as V. rewrite E, (Z0 a Ha') in V. apply (one_nz0 F). transitivity (kadd k0 k1 : F); [ring|]. rewrite <- V. ring.
    + unfold dn. rewrite !ev_m by apply id_hom. rewrite (proj2 (prodX_at F lp a)) by auto. ring.
    + intros E. apply in_lp in Ha as [Ha1 Ha2]. apply Ha1. rewrite <- VF, E. ring.
    + intros E. apply in_lp in Ha as [Ha1 Ha2]. pose proof (VS a) as V. rewrite E, Ha2 in V. apply two. rewrite <- V. ring.
    + unfold dn. rewrite !ev_m by apply id_hom. rewrite (proj2 (prodX_at F lp a)) by auto. ring.
    + intros E. apply in_lp in Ha as [Ha1 Ha2]. apply Ha1. rewrite <- VF, E. ring.
    + intros E. apply in_lp in Ha as [Ha1 Ha2]. pose proof (VS a) as V. rewrite E, Ha2 in V. apply two. rewrite <- V. ring.
  - set (R := (Y + (1 + 1) * (fA * sA) + px + (1 + 1) * (pC A * (px * Y)) + px * px * Y)%P).
    assert (EN : (N' * (w0 * (wm * wm)) = Y * Y * px + R)%P).
    { transitivity (fA * (sA * sA) + (1 + 1) * (fA * sA) + fA - (pC A + Y + px) * ((Y - px) * (Y - px)))%P.
      - rewrite w_split. unfold N', dn. transitivity (f' * w0 * ((si * wm) * (si * wm)) - (pC A + Y + px) * (w0 * (wp * wm) * (w0 * (wp * wm))))%P; [ring|]. rewrite <- Hf', <- Hsi. ring.
      - rewrite fA_q. unfold R, fA. ring. }
    destruct sz_Y as [SY NY]. destruct (sz_m F Y Y NY NY) as (NYY & SYY & _). destruct (sz_m F _ px NYY (x_nz F)) as (NYX & SYX & _). rewrite sz_x in SYX.
    destruct (sz_m F px Y (x_nz F) NY) as (NXY & SXY & _). rewrite sz_x in SXY.
    destruct (pw_sz F fA m fA_nz) as (Ns & Ss & _). fold sA in Ns, Ss. rewrite (proj1 sz_fA) in Ss. destruct (sz_m F fA sA fA_nz Ns) as (_ & Sfs & _). rewrite (proj1 sz_fA) in Sfs.
    assert (BI : forall a : poly F, (sz F ((1 + 1) * a) <= sz F a)%nat).
    { intros a. pose proof (sz_mb F (1 + 1)%P a 1 (sz F a) ltac:(apply sz_a; rewrite sz_I; lia) ltac:(lia)). lia. }
    assert (SR : (sz F R <= 2 * q + 1)%nat).
    { unfold R. repeat apply sz_a.
      - rewrite SY. lia.
      - eapply Nat.le_trans; [apply BI|]. lia.
      - rewrite sz_x. lia.
      - eapply Nat.le_trans; [apply BI|]. pose proof (sz_mb F (pC A) (px * Y)%P 1 (q + 2)) as B.
        assert (sz F (pC A * (px * Y))%P <= 1 + (q + 2) - 1)%nat; [|lia]. apply B; [|lia]. apply sz_le. intros [|i] Hi; [lia|]. now rewrite cf_C.
      - replace (px * px * Y)%P with (px * (px * Y))%P by ring. pose proof (sz_mb F px (px * Y)%P 2 (q + 2) ltac:(rewrite sz_x; lia) ltac:(lia)). lia. }
    destruct (sz_lt F (Y * Y * px)%P R ltac:(lia)) as [ST _]. rewrite <- EN in ST.
    destruct (sz_m F wm wm Nm Nm) as (Nmm & Smm & _). destruct (sz_m F w0 _ N0 Nmm) as (N0m & S0m & _).
    assert (NN : N' <> pO). { intros E. rewrite E in ST. replace (pO * (w0 * (wm * wm)))%P with (pO : poly F) in ST by ring. rewrite sz_O in ST. lia. }
    destruct (sz_m F N' _ NN N0m) as (_ & SN & _). pose proof len_split. lia.
  - unfold xs, pseq, P0, Qg. cbn [pmul]. rewrite padd_inf_r'. cbn [padd].
    assert (NW : (Y - px)%P <> pO). { rewrite w_split. repeat apply m_nz; auto. }
    destruct (kdec (pr F Y) X) as [E|NX]. { exfalso. apply NW. apply pr_inj in E. rewrite E. ring. }
    cbn [chord xof]. f_equal. set (w := (Y - px)%P) in *. assert (Nw : pr F w <> k0) by (apply pr_nz; auto).
    assert (Ew : ksub X (pr F Y) = kopp (pr F w)). { unfold w. rewrite pr_sub. ring. }
    rewrite Ew.
    assert (G : forall z : K, kmul z (pr F dn) = pr F N' -> z = (mkr F N' dn : K)).
    { intros z E. rewrite <- (mk_nude F z). apply mk_eq; [apply de_nz|auto|]. apply (pr_inj F). rewrite !pr_mul, <- E, nude. ring. }
    apply G. apply (mul_cancel K) with (pr F (w0 * (wm * wm))%P). { apply pr_nz. repeat apply m_nz; auto. }
    rewrite <- pr_mul. replace (N' * (w0 * (wm * wm)))%P with (fA * ((sA + 1) * (sA + 1)) - (pC A + Y + px) * (w * w))%P.
    2: { unfold w. rewrite w_split. rewrite Hsi. rewrite Hf' at 1. unfold N', dn. ring. }
    transitivity (kmul (ksub (ksub (ksub (kmul BK (kmul (kdiv (ksub k1 (pr F (- sA)%P)) (kopp (pr F w))) (kdiv (ksub k1 (pr F (- sA)%P)) (kopp (pr F w))))) AK) (pr F Y)) X) (kmul (pr F w) (pr F w))).
    { transitivity (kmul (ksub (ksub (ksub (kmul BK (kmul (kdiv (ksub k1 (pr F (- sA)%P)) (kopp (pr F w))) (kdiv (ksub k1 (pr F (- sA)%P)) (kopp (pr F w))))) AK) (pr F Y)) X) (pr F (dn * (w0 * (wm * wm)))%P)).
      - rewrite (pr_mul F dn). match goal with |- ?a = ?b => change (@eq (Fld.K K) a b) end. ring.
      - f_equal. rewrite <- pr_mul. f_equal. unfold w. rewrite w_split. unfold dn. ring. }
    rewrite pr_opp, pr_sub, !pr_mul, !pr_add. fold (cst F A). change (pr F 1) with (k1 : K).
    match goal with |- ?a = ?b => change (@eq (Fld.K K) a b) end. field. intros Z. apply Nw. transitivity (kopp (kopp (pr F w))); [match goal with |- ?a = ?b => change (@eq (Fld.K K) a b) end; ring|]. rewrite Z. match goal with |- ?a = ?b => change (@eq (Fld.K K) a b) end; ring.
  - rewrite Ld, Lpp, L0, Lp. ring.
  - fold dn. lia.
Qed.
(** The number of points, as counted by the classes of elements. *)
Definition NP : nat := (length l0 + 2 * length lp + 1)%nat.
Lemma base0 y : J F (xs y 0) /\ D F (xs y 0) = q.
Proof.
  rewrite xs_0. unfold J, D. cbn [fn gn]. destruct (nude_pr Y) as [-> ->]. destruct sz_Y as [-> _]. rewrite sz_I. pose proof m_pos. split; lia.
Qed.
Lemma base1 : J F (xs (po sA) 1) /\ D F (xs (po sA) 1) = NP.
Proof.
  destruct base as (N' & C & SN & -> & L & SD). destruct (mk_low F N' _ (conj C L)) as [E1 E2].
  unfold J, D. cbn [fn gn]. rewrite E1, E2, SN, SD. unfold NP. split; lia.
Qed.
Lemma base2 : J F (xs sA 1) /\ (D F (xs sA 1) + NP = 2 * q + 2)%nat.
Proof.
  destruct base1 as [J1 D1]. destruct (base0 sA) as [J0 D0]. pose proof (xs_XT0 sA (or_introl eq_refl)) as T.
  destruct (J_step F two A HA _ _ _ T J0 J1) as [J2 D2]. split; [exact J2|]. lia.
Qed.
Lemma deg_gen y t : sgn y -> J F (xs y 1) -> Z.of_nat (D F (xs y 1)) = Z.of_nat q + 1 + t ->
  forall n, (J F (xs y n) /\ Z.of_nat (D F (xs y n)) = Z.of_nat n * Z.of_nat n + Z.of_nat q + Z.of_nat n * t) /\
    (J F (xs y (S n)) /\ Z.of_nat (D F (xs y (S n))) = Z.of_nat (S n) * Z.of_nat (S n) + Z.of_nat q + Z.of_nat (S n) * t).
Proof.
  intros Hy J1 D1. induction n as [|n IH].
  - destruct (base0 y) as [J0 D0]. split; split; auto; lia.
  - destruct IH as [[Ja Da] [Jb Db]]. destruct (J_step F two A HA _ _ _ (xs_XT y n Hy) Jb Ja) as [Jc Dc]. split; split; auto.
    assert (E : Z.of_nat (D F (xs y (S (S n)))) = 2 * Z.of_nat (D F (xs y (S n))) + 2 - Z.of_nat (D F (xs y n))) by lia. rewrite E, Da, Db. lia.
Qed.
Definition tr : Z := Z.of_nat NP - Z.of_nat q - 1.
Lemma deg_m n : J F (xs (po sA) n) /\ Z.of_nat (D F (xs (po sA) n)) = Z.of_nat n * Z.of_nat n + Z.of_nat q + Z.of_nat n * tr.
Proof. destruct base1 as [J1 D1]. apply (deg_gen (po sA) tr); [now right|auto|]. unfold tr. lia. Qed.
Lemma deg_p n : J F (xs sA n) /\ Z.of_nat (D F (xs sA n)) = Z.of_nat n * Z.of_nat n + Z.of_nat q - Z.of_nat n * tr.
Proof.
  destruct base2 as [J1 D1]. destruct (deg_gen sA (- tr) (or_introl eq_refl) J1) with (n := n) as [[Ja Da] _]; [unfold tr; lia|]. split; auto. lia.
Qed.
Lemma p_pos : 0 < Z.of_nat p. Proof. pose proof (prime_ge_2 _ Hp). lia. Qed.
Lemma hasse_NP : hasse (Z.of_nat p) (Z.of_nat NP).
Proof.
  unfold hasse. destruct (deg_m p) as [_ E1]. destruct (deg_p p) as [_ E2]. pose proof p_pos as P.
  pose proof (Nat2Z.is_nonneg (D F (xs (po sA) p))) as G1. pose proof (Nat2Z.is_nonneg (D F (xs sA p))) as G2. rewrite E1 in G1. rewrite E2 in G2.
  rewrite Nat2Z.inj_mul in *. unfold tr in *. rewrite Nat2Z.inj_mul in *. set (P0 := Z.of_nat p) in *. set (N := Z.of_nat NP) in *. clearbody P0 N. clear - P G1 G2. nia.
Qed.
Lemma D0_inf z : J F z -> D F z = 0%nat -> z = XInf.
Proof.
  unfold J, D. intros H1 H2. destruct z as [|z]; [auto|]. cbn [fn gn] in *. exfalso. assert (E : sz F (de z) = 0%nat) by lia. apply sz_z in E. now apply (de_nz F z).
Qed.
Lemma ss_p : NP = ((p + 1) * (p + 1))%nat <-> xs sA p = XInf.
Proof.
  destruct (deg_p p) as [Jp E]. pose proof p_pos as P. split; intros H.
  - apply D0_inf; auto. unfold tr in E. rewrite H in E. lia.
  - rewrite H in E. unfold D in E. cbn [fn] in E. rewrite sz_I in E. cbn [Nat.sub Z.of_nat] in E. unfold tr in E. clear - E P. nia.
Qed.
Lemma ss_m : NP = ((p - 1) * (p - 1))%nat <-> xs (po sA) p = XInf.
Proof.
  destruct (deg_m p) as [Jp E]. pose proof p_pos as P. split; intros H.
  - apply D0_inf; auto. unfold tr in E. rewrite H in E. assert (exists k, p = S k) as [k ->] by (exists (p - 1)%nat; lia). lia.
  - rewrite H in E. unfold D in E. cbn [fn] in E. rewrite sz_I in E. cbn [Nat.sub Z.of_nat] in E. unfold tr in E.
    assert (exists k, p = S k) as [k ->] by (exists (p - 1)%nat; lia). clear - E P. nia.
Qed.
(** ** The list of points *)
Definition rt (a : F) : F := match find (fun b => if kdec (kmul b b) (fx A a) then true else false) elems with Some b => b | None => k0 end.
Lemma rt_ok a : In a lp -> kmul (rt a) (rt a) = fx A a.
Proof.
  intros H. apply in_lp in H as [H1 H2]. destruct (euler_sq F elems ND Hall m ltac:(lia) _ H2) as [b Hb]. unfold rt.
  destruct (find _ elems) as [c|] eqn:E.
  - apply find_some in E as [_ E]. destruct (kdec (kmul c c) (fx A a)); [auto|discriminate].
  - pose proof (find_none _ _ E b (Hall b)) as N. cbn beta in N. destruct (kdec (kmul b b) (fx A a)); [discriminate|contradiction].
Qed.
Definition pts : list (point F) := Inf :: map (fun a => Aff a k0) l0 ++ (map (fun a => Aff a (rt a)) lp ++ map (fun a => Aff a (kopp (rt a))) lp).
Lemma pts_len : length pts = NP. Proof. unfold pts, NP. cbn [length]. rewrite !app_length, !map_length. lia. Qed.
Lemma opp_z (z : F) : kopp z = k0 -> z = k0. Proof. intros E. transitivity (kopp (kopp z)); [ring|]. rewrite E. ring. Qed.
Lemma opp_self (z : F) : z = kopp z -> z = k0.
Proof. intros E. apply (mul_cancel F) with (kadd k1 k1 : F); [exact two|]. transitivity (kadd z z); [ring|]. rewrite E at 1. ring. Qed.
Lemma rt_nz a : In a lp -> rt a <> k0.
Proof. intros H E. apply in_lp in H as H'. apply H'. rewrite <- (rt_ok a H), E. ring. Qed.
Lemma pts_all : all_points A k1 pts.
Proof.
  assert (I1 : forall M, In M (map (fun a => Aff a k0) l0) <-> exists a, In a l0 /\ M = Aff a k0).
  { intros M. rewrite in_map_iff. split; intros (a & H1 & H2); exists a; auto. }
  assert (I2 : forall M, In M (map (fun a => Aff a (rt a)) lp) <-> exists a, In a lp /\ M = Aff a (rt a)).
  { intros M. rewrite in_map_iff. split; intros (a & H1 & H2); exists a; auto. }
  assert (I3 : forall M, In M (map (fun a => Aff a (kopp (rt a))) lp) <-> exists a, In a lp /\ M = Aff a (kopp (rt a))).
  { intros M. rewrite in_map_iff. split; intros (a & H1 & H2); exists a; auto. }
  split.
  - unfold pts. constructor.
    + rewrite !in_app_iff, I1, I2, I3. intros [(a & _ & E)|[(a & _ & E)|(a & _ & E)]]; discriminate.
    + apply NoDup_app_in; [|apply NoDup_app_in|].
      * apply NoDup_map_in; [|apply nd_l0]. intros a b _ _ E. congruence.
      * apply NoDup_map_in; [|apply nd_lp]. intros a b _ _ E. congruence.
      * apply NoDup_map_in; [|apply nd_lp]. intros a b _ _ E. congruence.
      * intros M. rewrite I2, I3. intros (a & Ha & ->) (b & Hb & E). assert (a = b) by congruence. subst b. assert (E2 : rt a = kopp (rt a)) by congruence.
        apply (rt_nz a Ha). now apply opp_self.
      * intros M. rewrite in_app_iff, I1, I2, I3. intros (a & Ha & ->) [(b & Hb & E)|(b & Hb & E)]; assert (a = b) by congruence; subst b.
        -- apply (rt_nz a Hb). congruence.
        -- apply (rt_nz a Hb). apply opp_z. congruence.
  - intros [|x y]; unfold pts; cbn [In]; rewrite ?in_app_iff, ?I1, ?I2, ?I3.
    + split; [intros _; exact I|auto].
    + unfold on. split.
      * intros [E|[(a & Ha & E)|[(a & Ha & E)|(a & Ha & E)]]]; [discriminate|..]; assert (x = a) by congruence; subst x.
        -- assert (y = k0) by congruence. subst y. apply in_l0 in Ha. rewrite Ha. ring.
        -- assert (E2 : y = rt a) by congruence. rewrite E2, <- (rt_ok a Ha). ring.
        -- assert (E2 : y = kopp (rt a)) by congruence. rewrite E2, <- (rt_ok a Ha). ring.
      * intros E. right. assert (E1 : kmul y y = fx A x) by (rewrite <- E; ring). destruct (kdec (fx A x) k0) as [Z|N].
        -- left. exists x. split; [now apply in_l0|]. f_equal. apply (sqr_z F). now rewrite E1.
        -- right. assert (Hx : In x lp). { apply in_lp. split; auto. rewrite <- E1. apply (euler_1 F elems ND Hall m ltac:(lia)). intros Z. apply N. rewrite <- E1, Z. ring. }
           assert (E2 : kmul (ksub y (rt x)) (kadd y (rt x)) = k0). { transitivity (ksub (kmul y y) (kmul (rt x) (rt x))); [ring|]. rewrite E1, (rt_ok x Hx). ring. }
           destruct (kdec (ksub y (rt x)) k0) as [Z|N2].
           ++ left. exists x. split; auto. f_equal. now apply (sub_eq F).
           ++ right. exists x. split; auto. f_equal. destruct (kdec (kadd y (rt x)) k0) as [Z|N3]; [|exfalso; now apply (mul_nz F _ _ N2 N3)].
              transitivity (ksub (kadd y (rt x)) (rt x)); [ring|]. rewrite Z. ring.
Qed.
Lemma count_NP l : all_points A k1 l -> length l = NP.
Proof.
  intros [H1 H2]. rewrite <- pts_len. apply Permutation_length, NoDup_Permutation; auto; [apply pts_all|]. intros M. rewrite H2. symmetry. apply pts_all.
Qed.
Theorem hasse_bound l : all_points A k1 l -> hasse (Z.of_nat p) (Z.of_nat (length l)).
Proof. intros H. rewrite (count_NP l H). apply hasse_NP. Qed.
(** ** Exponent of the group *)
Lemma sp0 y a : sp F F idF a (xs y 0) = XF a.
Proof.
  rewrite xs_0. unfold sp. cbn [fn gn]. destruct (nude_pr Y) as [-> ->]. rewrite ev_1, ev_w, ev_x by apply id_hom. destruct (kdec (k1 : F) k0) as [E|_]; [now destruct (one_nz F E)|].
  f_equal. rewrite <- Hq, (fermat_F F elems ND Hall). field. apply one_nz.
Qed.
Lemma sp1 a : In a lp -> sp F F idF a (xs (po sA) 1) = XInf.
Proof.
  intros Ha. destruct base as (N' & C & SN & -> & L & SD). destruct (mk_low F N' _ (conj C L)) as [E1 E2]. unfold sp. cbn [fn gn]. rewrite E2.
  rewrite !ev_m, (proj2 (prodX_at F lp a)) by (auto; apply id_hom). destruct kdec as [_|N]; [auto|]. destruct N. ring.
Qed.
Lemma sp_seq y a n : sgn y -> XT F A (sp F F idF a (xs y (S n))) (XF a) (sp F F idF a (xs y (S (S n)))) (sp F F idF a (xs y n)).
Proof. intros H. apply (sp_XT F two A HA F idF id_hom a _ _ _ (xs_XT y n H)). Qed.
Lemma sp_pseq a b : on A k1 (Aff a b) -> b <> k0 -> (forall n, sp F F idF a (xs sA n) = xof (pseq F A k1 (Aff a b) (Aff a b) n)) /\
  (forall n, sp F F idF a (xs (po sA) n) = xof (pseq F A k1 (neg (Aff a b)) (Aff a b) n)).
Proof.
  intros H Nb. assert (E1 : kmul b b = fx A a) by (cbn in H; rewrite <- H; ring).
  assert (Ha : In a lp). { apply in_lp. split; [rewrite <- E1; now apply (mul_nz F)|]. rewrite <- E1. now apply (euler_1 F elems ND Hall m ltac:(lia)). }
  assert (Hn : on A k1 (neg (Aff a b))) by now apply neg_on. pose proof (one_nz F) as N1.
  assert (EN : xof (pseq F A k1 (neg (Aff a b)) (Aff a b) 1) = XInf).
  { unfold pseq. cbn [pmul]. rewrite padd_inf_r'. now rewrite (padd_neg' F A k1). }
  assert (T0 : XT F A (XF a) (XF a) (sp F F idF a (xs sA 1)) XInf).
  { pose proof (sp_XT F two A HA F idF id_hom a _ _ _ (xs_XT0 sA (or_introl eq_refl))) as T. rewrite sp0, sp1 in T by auto. exact T. }
  assert (T1 : XT F A (XF a) (XF a) (xof (pseq F A k1 (Aff a b) (Aff a b) 1)) XInf).
  { pose proof (pseq_XT0 F two A k1 (Aff a b) (Aff a b) HA N1 H H) as T. rewrite EN in T. exact T. }
  split.
  - apply (XT_seq F A (XF a)); [intros n; apply sp_seq; now left|intros n; apply (pseq_XT F two A k1 _ (Aff a b) n HA N1 H H)|now rewrite sp0|].
    apply (XT_uniq F A _ _ _ _ _ T0 T1).
  - apply (XT_seq F A (XF a)); [intros n; apply sp_seq; now right|intros n; apply (pseq_XT F two A k1 _ (Aff a b) n HA N1 Hn H)|now rewrite sp0|].
    rewrite sp1 by auto. now rewrite EN.
Qed.
Lemma odd_p : exists k, p = (2 * k + 1)%nat.
Proof. pose proof Hm as E. destruct (Nat.Even_or_Odd p) as [[k Hk]|[k Hk]]; [|exists k; lia]. exfalso. subst p. lia. Qed.
Lemma two_tor a n : on A k1 (Aff a k0) -> pmul A k1 (2 * n) (Aff a k0) = Inf.
Proof.
  intros H. pose proof (one_nz F) as N1. rewrite Nat.mul_comm, (pmul_mul F two A k1 HA N1) by auto. replace (pmul A k1 2 (Aff a k0)) with (Inf : point F).
  - induction n as [|n IH]; [reflexivity|]. cbn [pmul padd]. exact IH.
  - cbn [pmul]. rewrite padd_inf_r'. cbn [padd]. destruct (kdec a a); [|contradiction]. destruct kdec as [_|N]; [auto|]. destruct N. ring.
Qed.
Lemma xof_inf (M : point F) : xof M = XInf -> M = Inf. Proof. destruct M; [auto|discriminate]. Qed.
Theorem kill_p M : NP = ((p + 1) * (p + 1))%nat -> on A k1 M -> pmul A k1 (p + 1) M = Inf.
Proof.
  intros HN HM. destruct M as [|a b]. { clear. induction (p + 1)%nat as [|n IH]; [auto|]. cbn [pmul padd]. exact IH. }
  destruct (kdec b k0) as [->|Nb]. { destruct odd_p as [k Hk]. replace (p + 1)%nat with (2 * (k + 1))%nat by lia. now apply two_tor. }
  destruct (sp_pseq a b HM Nb) as [E _]. specialize (E p). rewrite (proj1 ss_p HN), sp_inf in E. symmetry in E. apply xof_inf in E. rewrite Nat.add_comm. exact E.
Qed.
Theorem kill_m M : NP = ((p - 1) * (p - 1))%nat -> on A k1 M -> pmul A k1 (p - 1) M = Inf.
Proof.
  intros HN HM. pose proof (one_nz F) as N1. destruct M as [|a b]. { clear. induction (p - 1)%nat as [|n IH]; [auto|]. cbn [pmul padd]. exact IH. }
  destruct odd_p as [k Hk]. destruct (kdec b k0) as [->|Nb]. { replace (p - 1)%nat with (2 * k)%nat by lia. now apply two_tor. }
  destruct (sp_pseq a b HM Nb) as [_ E]. specialize (E p). rewrite (proj1 ss_m HN), sp_inf in E. symmetry in E. apply xof_inf in E. unfold pseq in E.
  replace p with (S (p - 1)) in E by lia. cbn [pmul] in E. set (M := Aff a b) in *. pose proof (neg_on F A k1 M HM) as Hn. pose proof (pmul_on F two A k1 HA N1 (p - 1) M HM) as Hk'.
  rewrite <- (padd_assoc F two A k1 HA N1) in E by auto. rewrite (padd_neg' F A k1) in E. exact E.
Qed.
End Curve.
End Ha.
