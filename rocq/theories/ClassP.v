(** The curves with (p+1)^2 points over a field with p^2 elements, p + 1 = 2^a 3^b, a > 2: closed under isomorphisms and isogenies,
    and with rational points of order 4 (proofs only). *)
From Coq Require Import Field Znumtheory Permutation.
From Verif Require Import Base Fermat Out Params Ops Ec Models Fld FieldOps CurveSpec IsogSpec ModelSpec XSpec WalkSpec OrderSpec SupSpec FldCurve GroupP MultP IsoP FldIsog FldModels
  XLine XIso Strategy XChain CheckP XIsog WalkP OrderP CountP SquareP KumP Poly RatFun PolyEv Manin XSeq Hasse TorsP.
Set Bullet Behavior "Strict Subproofs".

(** ** Halving *)
Section Hv.
Variable F : fld.
Hypothesis two : (kadd k1 k1 : F) <> k0.
Local Open Scope fld_scope.
Definition kth49 := kth F.
Add Field KF49 : kth49.
Variable A : F.
Hypothesis HA : A * A <> 4.
Let N1 : (1 : F) <> 0 := one_nz F.
Lemma four : (4 : F) <> 0. Proof. apply (mul_nz F); exact two. Qed.
Lemma dbl_rel h k X Y : on A 1 (Aff h k) -> padd A 1 (Aff h k) (Aff h k) = Aff X Y ->
  k * k = fx A h /\ k <> 0 /\ (h * h - 1) * (h * h - 1) = 4 * X * (k * k).
Proof.
  intros H E. pose proof (dblx_pt F two A 1 _ HA N1 H) as D. rewrite E in D. cbn [xof dblx] in D. assert (E1 : k * k = fx A h) by (cbn [on] in H; rewrite <- H; ring).
  destruct (kdec (fx A h) 0) as [|N]; [discriminate|]. split; [auto|]. split. { intros ->. apply N. rewrite <- E1. ring. }
  assert (E2 : (h * h - 1) * (h * h - 1) / (4 * fx A h) = X) by congruence. rewrite <- E2, E1. pose proof four. field; repeat split; auto; try exact four; exact two.
Qed.
Lemma half_eq x g : x * x + A * x + 1 = 0 -> (g * g - 1) * (g * g - 1) - 4 * x * fx A g = (g * g - 2 * x * g + 1) * (g * g - 2 * x * g + 1).
Proof.
  intros E. assert (E2 : A * x = - (x * x) - 1). { transitivity (x * x + A * x + 1 - x * x - 1); [ring|]. rewrite E. ring. }
  unfold fx. transitivity ((g * g - 1) * (g * g - 1) - 4 * x * (g * g * g) - 4 * (A * x) * (g * g) - 4 * x * g); [ring|]. rewrite E2. ring.
Qed.
Hypothesis halve4 : forall Q, on A 1 Q -> pmul A 1 4 Q = Inf -> exists M, on A 1 M /\ padd A 1 M M = Q.
Lemma pm4 M : on A 1 M -> pmul A 1 4 M = padd A 1 (padd A 1 M M) (padd A 1 M M).
Proof. intros H. change 4%nat with (2 * 2)%nat. rewrite (pmul_mul F two A 1 HA N1) by auto. now rewrite !(pmul_2 F A 1). Qed.
Lemma dbl_y0 x : padd A 1 (Aff x 0) (Aff x 0) = Inf.
Proof. cbn [padd]. destruct (kdec x x); [|contradiction]. destruct kdec as [_|N]; [auto|]. destruct N. ring. Qed.
Lemma half_sq x : x * x + A * x + 1 = 0 -> exists v w, v * v = x * x - 1 /\ w * w = v.
Proof.
  intros E. assert (HQ : on A 1 (Aff x 0)). { cbn [on]. unfold fx. transitivity (x * (x * x + A * x + 1)); [rewrite E; ring|ring]. }
  destruct (halve4 (Aff x 0) HQ) as ([|h k] & HM & EM). { rewrite pm4 by auto. now rewrite dbl_y0. } { discriminate. }
  destruct (dbl_rel h k x 0 HM EM) as (K1 & K2 & K3). rewrite K1 in K3.
  assert (Z : h * h - 2 * x * h + 1 = 0). { apply (sqr_z F). rewrite <- (half_eq x h E), K3. ring. }
  destruct (halve4 (Aff h k) HM) as ([|g l] & HM' & EM'). { rewrite pm4 by auto. rewrite EM. apply dbl_y0. } { discriminate. }
  destruct (dbl_rel g l h k HM' EM') as (L1 & L2 & L3). exists (h - x), ((g * g - 2 * x * g + 1) / (2 * l)). split.
  - apply (sub_eq F). transitivity (h * h - 2 * x * h + 1); [ring|exact Z].
  - transitivity ((g * g - 2 * x * g + 1) * (g * g - 2 * x * g + 1) / (4 * (l * l))); [field; repeat split; auto; try exact four; try exact two|]. rewrite <- (half_eq x g E), <- L1, L3. pose proof four. field; repeat split; auto; try exact four; exact two.
Qed.
Lemma plus2 x x' : x * x + A * x + 1 = 0 -> x + x' = - A -> exists b, b * b = A + 2.
Proof.
  intros E E'. assert (HQ : on A 1 (Aff 0 0)). { cbn [on]. unfold fx. ring. }
  destruct (halve4 (Aff 0 0) HQ) as ([|h k] & HM & EM). { rewrite pm4 by auto. now rewrite dbl_y0. } { discriminate. }
  destruct (dbl_rel h k 0 0 HM EM) as (K1 & K2 & K3). assert (Z : h * h - 1 = 0). { apply (sqr_z F). rewrite K3. ring. }
  assert (Z2 : (h - 1) * (h + 1) = 0) by (rewrite <- Z; ring). destruct (kdec h 1) as [->|Nh].
  - exists k. rewrite K1. unfold fx. ring.
  - assert (Eh : h = - (1)). { apply (sub_eq F). apply (mul_cancel F) with (h - 1); [now apply (sub_nz F)|]. transitivity ((h - 1) * (h + 1)); [ring|]. rewrite Z2. ring. }
    assert (Ek : k * k = A - 2). { rewrite K1, Eh. unfold fx. ring. }
    assert (Ex : x' = - A - x). { transitivity (x + x' - x); [ring|]. rewrite E'. ring. }
    exists ((x - x') / k). transitivity ((x - x') * (x - x') / (k * k)); [field; auto|]. rewrite Ek.
    assert (N2 : A - 2 <> 0). { rewrite <- Ek. now apply (mul_nz F). }
    assert (E3 : (x - x') * (x - x') = (A - 2) * (A + 2)). { rewrite Ex. transitivity (4 * (x * x + A * x + 1) + (A - 2) * (A + 2)); [ring|]. rewrite E. ring. }
    rewrite E3. field. auto.
Qed.
End Hv.

(** ** A value of K that is not algebraic over F *)
Section Tr.
Variable F : fld.
Definition prth50 := pring F.
Add Ring PR50 : prth50.
Definition kth50 := kth (RF F).
Add Field KF50 : kth50.
Variables (y : RF F) (n d : poly F).
Hypothesis Hy : kmul y (pr F d) = pr F n.
Hypothesis Hd : d <> pO.
Hypothesis Hs : (sz F d < sz F n)%nat.
Lemma tran P : P <> pO -> exists N E, E <> pO /\ N <> pO /\ kmul (ev (cst F) P y) (pr F E) = pr F N /\ (sz F E <= sz F N)%nat.
Proof.
  assert (Nn : n <> pO). { intros X. rewrite X, sz_O in Hs. lia. }
  revert P. apply (p_ind F (fun P => P <> pO -> exists N E, E <> pO /\ N <> pO /\ kmul (ev (cst F) P y) (pr F E) = pr F N /\ (sz F E <= sz F N)%nat)).
  - intros X. now destruct X.
  - intros c P IH NP. rewrite ev_a, ev_m, ev_x, ev_C by apply cst_hom. destruct (sz F P) as [|k] eqn:SP.
    + apply sz_z in SP. subst P. assert (EP : (pC c + px * pO)%P = (pC c : poly F)) by ring. rewrite EP in NP. exists (pC c), pI. split; [apply I_nz|]. split; [exact NP|].
      rewrite ev_0 by apply cst_hom. split; [|rewrite sz_I; now apply sz_pos]. change (pr F pI) with (k1 : RF F). change (pr F (pC c)) with (cst F c).
      match goal with |- ?a = ?b => change (@eq (Fld.K (RF F)) a b) end. ring.
    + assert (NP0 : P <> pO) by (intros X; rewrite X, sz_O in SP; discriminate). destruct (IH NP0) as (N & E & NE & NN & EQ & SS).
      destruct (sz_m F d E Hd NE) as (NdE & SdE & _). destruct (sz_m F n N Nn NN) as (NnN & SnN & _).
      pose proof (sz_pos F _ NE) as PE. pose proof (sz_pos F _ Hd) as Pd.
      assert (SL : (sz F (pC c * (d * E))%P < sz F (n * N)%P)%nat).
      { apply Nat.le_lt_trans with (sz F (d * E)%P); [apply sz_small; lia|]. lia. }
      destruct (sz_lt F _ _ SL) as [ST _]. exists (n * N + pC c * (d * E))%P, (d * E)%P. split; [auto|]. split. { intros X. rewrite X, sz_O in ST. pose proof (sz_pos F _ NnN). lia. }
      split; [|lia]. rewrite pr_add, !pr_mul, <- Hy, <- EQ. fold (cst F c).
      match goal with |- ?a = ?b => change (@eq (Fld.K (RF F)) a b) end. ring.
Qed.
Lemma tran0 P : ev (cst F) P y = k0 -> P = pO.
Proof.
  intros E. destruct (sz F P) as [|k] eqn:SP; [now apply sz_z|]. exfalso. assert (NP : P <> pO) by (intros X; rewrite X, sz_O in SP; discriminate).
  destruct (tran P NP) as (N & E' & NE & NN & EQ & _). rewrite E in EQ. apply (pr_nz F N NN). rewrite <- EQ. match goal with |- ?a = ?b => change (@eq (Fld.K (RF F)) a b) end. ring.
Qed.
End Tr.

Section Cl.
Variable F : fld.
Hypothesis two : (kadd k1 k1 : F) <> k0.
Variable elems : list F.
Hypothesis ND : NoDup elems.
Hypothesis Hall : forall x : F, In x elems.
Variables p m : nat.
Hypothesis Hp : prime (Z.of_nat p).
Hypothesis Cp : (kn p : F) = k0.
Hypothesis Hq : length elems = (p * p)%nat.
Hypothesis Hm : (p * p = 2 * m + 1)%nat.
Variables a b : nat.
Hypothesis Hab : (p + 1 = 2 ^ S (S (S a)) * 3 ^ b)%nat.
Hypothesis sqm1 : exists i : F, kmul i i = kopp k1.
Notation K := (RF F).
Definition prth51 := pring F.
Add Ring PR51 : prth51.
Definition kth51 := kth F.
Add Field KF51 : kth51.
Definition kth52 := kth (RF F).
Add Field KF52 : kth52.
Local Open Scope fld_scope.
Ltac toF := match goal with |- ?a = ?b => change (@eq (Fld.K F) a b) end.
Ltac toK := match goal with |- ?a = ?b => change (@eq (Fld.K K) a b) end.
Notation X := (pr F px).
Notation q := (p * p)%nat.
Notation Y := (pw px q : poly F).
Let N1 : (1 : F) <> 0 := one_nz F.
Notation SS := (@maximal F p).
Notation NPA := (fun A => NP F elems m A).
Notation nsq x := (exists z, z * z = x).
Lemma ss_np A : SS A <-> A * A <> 4 /\ NPA A = ((p + 1) * (p + 1))%nat.
Proof.
  split.
  - intros (HA & l & Hl & E). split; auto. cbn beta. rewrite <- E. symmetry. apply (count_NP F two elems ND Hall p m Hq Hm A l Hl).
  - intros (HA & E). split; auto. exists (pts F elems m A). rewrite <- E, (pts_len F elems Hall p m Hq Hm A). split; [|reflexivity]. apply (pts_all F two elems ND Hall p m Hq Hm A).
Qed.
Lemma ss_kill A M : SS A -> on A 1 M -> pmul A 1 (p + 1) M = Inf.
Proof. intros H HM. apply ss_np in H as [HA H]. now apply (kill_p F two elems ND Hall p m Hp Cp Hq Hm A HA). Qed.
Lemma ss_halve A : SS A -> forall Q, on A 1 Q -> pmul A 1 4 Q = Inf -> exists M, on A 1 M /\ padd A 1 M M = Q.
Proof.
  intros H. pose proof H as (HA & l & Hl & E). intros Q HQ EQ. apply (halve F two A HA l Hl (S (S a)) b).
  - rewrite <- Hab. exact E.
  - intros M HM. rewrite <- Hab. now apply ss_kill.
  - exact HQ.
  - replace (2 ^ S (S a) * 3 ^ b)%nat with (2 ^ a * 3 ^ b * 4)%nat by (cbn [Nat.pow]; lia). rewrite (pmul_mul F two A 1 HA N1) by auto. rewrite EQ. apply (pmul_inf F A 1).
Qed.
Lemma ss_root A : SS A -> exists x, x * x + A * x + 1 = 0.
Proof.
  intros H. pose proof H as (HA & l & Hl & E).
  assert (T : length (tors F A l 2) = 4%nat).
  { apply (full2 F two A HA l Hl (S (S a)) b); [rewrite <- Hab; exact E|]. intros M HM. rewrite <- Hab. now apply ss_kill. }
  destruct (existsb (fun M => negb (if pdec F M Inf then true else if pdec F M (Aff 0 0) then true else false)) (tors F A l 2)) eqn:X0.
  - apply existsb_exists in X0 as (M & HM & X0). apply (in_tors F A l Hl) in HM as [HM EM]. destruct (pdec F M Inf) as [|Ni]; [discriminate|]. destruct (pdec F M (Aff 0 0)) as [|Nz]; [discriminate|].
    destruct M as [|x y]; [now destruct Ni|]. pose proof (ker_2 F two A x y HM EM) as ->. exists x. assert (Nx : x <> 0) by (intros ->; now apply Nz).
    apply (mul_cancel F) with x; auto. cbn [on] in HM. unfold fx in HM. transitivity (x * x * x + A * (x * x) + x); [toF; ring|]. rewrite <- HM. toF. ring.
  - exfalso. assert (L : (length (tors F A l 2) <= length [Inf; Aff (k0 : F) k0])%nat); [|rewrite T in L; cbn in L; lia].
    apply NoDup_incl_length; [apply (nd_tors F A l Hl)|]. intros M HM.
    destruct (pdec F M Inf) as [->|Ni]; [now left|]. destruct (pdec F M (Aff 0 0)) as [->|Nz]; [right; now left|]. exfalso.
    assert (Y0 : existsb (fun M => negb (if pdec F M Inf then true else if pdec F M (Aff 0 0) then true else false)) (tors F A l 2) = true); [|congruence].
    apply existsb_exists. exists M. split; auto. destruct (pdec F M Inf); [contradiction|]. destruct (pdec F M (Aff 0 0)); [contradiction|auto].
Qed.
Lemma ss_half A x : SS A -> x * x + A * x + 1 = 0 -> exists v w, v * v = x * x - 1 /\ w * w = v.
Proof. intros H E. apply (half_sq F two A (proj1 H)); auto. now apply ss_halve. Qed.
Lemma ss_full4' A : SS A -> full4 A.
Proof.
  intros H. split; [apply H|]. destruct (ss_root A H) as [x E1]. set (x' := - A - x). assert (E2 : x' * x' + A * x' + 1 = 0). { rewrite <- E1. unfold x'. toF. ring. }
  destruct (ss_half A x H E1) as (v & _ & Ev & _). destruct (ss_half A x' H E2) as (v' & _ & Ev' & _).
  exists x, x', v, v'. split; [unfold x'; toF; ring|]. split; [|auto].
  apply (sub_eq F). transitivity (- (x * x + A * x + 1)); [unfold x'; toF; ring|]. rewrite E1. toF. ring.
Qed.
Lemma ss_sqr A : SS A -> nsq (A + 2).
Proof.
  intros H. destruct (ss_root A H) as [x E1]. apply (plus2 F two A (proj1 H) (ss_halve A H) x (- A - x)); auto. toF. ring.
Qed.
(** ** Isomorphisms *)
Lemma ss_isou A B r u : SS A -> iso_to A B r u -> exists w, w * w = u.
Proof.
  intros H (Nu & Er & Eu & _). destruct sqm1 as [i Ei].
  assert (PM : forall u v w : F, u * u = v * v -> w * w = v -> exists z, z * z = u).
  { clear - Ei. intros u v w E Ew. destruct (kdec u v) as [->|N]; [eauto|]. exists (i * w). transitivity ((i * i) * (w * w)); [toF; ring|]. rewrite Ei, Ew.
    symmetry. apply (mul_cancel F) with (u - v); [now apply (sub_nz F)|]. apply (sub_eq F). transitivity (u * u - v * v); [toF; ring|]. rewrite E. toF. ring. }
  destruct (kdec r 0) as [->|Nr].
  - apply (PM u 1 1); [rewrite Eu; toF; ring|toF; ring].
  - assert (E1 : r * r + A * r + 1 = 0). { apply (mul_cancel F) with r; auto. unfold fx in Er. transitivity (r * r * r + A * (r * r) + r); [toF; ring|]. rewrite Er. toF. ring. }
    destruct (ss_half A r H E1) as (v & w & Ev & Ew). apply (PM u v w); auto. rewrite Eu, Ev. apply (sub_eq F). transitivity (2 * (r * r + A * r + 1)); [toF; ring|]. rewrite E1. toF. ring.
Qed.
Lemma ss_iso' A B r u : SS A -> iso_to A B r u -> SS B.
Proof.
  intros H HI. destruct (ss_isou A B r u H HI) as [w Ew]. pose proof (iso_full4 F A B r u (ss_full4' A H) HI) as [HB _]. pose proof (proj1 HI) as Nu.
  assert (Nw : w <> 0) by (intros Z; apply Nu; rewrite <- Ew, Z; toF; ring). split; auto. destruct H as (HA & l & [Nl Hl] & E).
  set (f := fun M : point F => match M with Inf => Inf | Aff x y => Aff ((x - r) / u) (y / (w * w * w)) end).
  set (g := fun M : point F => match M with Inf => Inf | Aff x y => Aff (u * x + r) (w * w * w * y) end).
  assert (fg : forall M, f (g M) = M) by (intros [|x y]; cbn; [auto|f_equal; toF; field; auto]).
  assert (gf : forall M, g (f M) = M) by (intros [|x y]; cbn; [auto|f_equal; toF; field; auto]).
  assert (fo : forall M, on A 1 M -> on B 1 (f M)).
  { intros [|x y] HM; [exact I|]. cbn [f on] in *. pose proof (iso_fx F A B r u HI x) as Fx. rewrite Fx in HM.
    transitivity (1 * (y * y) / (u * u * u)); [rewrite <- Ew; toF; field; auto|]. rewrite HM. toF. field. auto. }
  assert (go : forall M, on B 1 M -> on A 1 (g M)).
  { intros [|x y] HM; [exact I|]. cbn [g on] in *. pose proof (iso_fx F A B r u HI (u * x + r)) as Fx. rewrite Fx.
    replace ((u * x + r - r) / u) with x by (toF; field; auto). rewrite <- HM, <- Ew. toF. ring. }
  exists (map f l). rewrite map_length. split; [|exact E]. split.
  - apply NoDup_map_in; auto. intros M M' _ _ EM. rewrite <- (gf M), <- (gf M'), EM. reflexivity.
  - intros M. rewrite in_map_iff. split.
    + intros (M' & <- & HM). apply fo. now apply Hl.
    + intros HM. exists (g M). split; [apply fg|]. apply Hl. now apply go.
Qed.
(** ** Isogenies *)
Lemma transfer A A' (f : xl K -> xl K) (y : K) : A * A <> 4 -> A' * A' <> 4 -> f XInf = XInf ->
  (forall q1 q2 s d, XT K (cst F A) q1 q2 s d -> XT K (cst F A') (f q1) (f q2) (f s) (f d)) ->
  f (XF X) = XF y -> f (XF (pr F Y)) = XF (kpow y q) -> (forall P, ev (cst F) P y = k0 -> P = pO) ->
  NPA A = ((p + 1) * (p + 1))%nat -> NPA A' = ((p + 1) * (p + 1))%nat \/ NPA A' = ((p - 1) * (p - 1))%nat.
Proof.
  intros HA HA' f0 fT fX fY Htr HN. cbn beta in *.
  apply (ss_p F two elems ND Hall p m Hp Cp Hq Hm A HA) in HN. rewrite (ss_p F two elems ND Hall p m Hp Cp Hq Hm A' HA'), (ss_m F two elems ND Hall p m Hp Cp Hq Hm A' HA').
  set (sA := sA F m A) in *. set (sA' := Hasse.sA F m A').
  set (u := fun n => f (xs F p A sA n)). set (z := fun y0 n => sp F K (cst F) y (xs F p A' y0 n)).
  assert (U : forall n, XT K (cst F A') (u (S n)) (XF y) (u (S (S n))) (u n)).
  { intros n. unfold u. rewrite <- fX. apply fT. apply (xs_XT F two elems ND Hall p m Hp Cp Hq Hm A HA sA n). now left. }
  assert (Z : forall y0, sgn F m A' y0 -> forall n, XT K (cst F A') (z y0 (S n)) (XF y) (z y0 (S (S n))) (z y0 n)).
  { intros y0 H0 n. unfold z. apply (sp_XT F two A' HA' K (cst F) (cst_hom F) y). now apply (xs_XT F two elems ND Hall p m Hp Cp Hq Hm A' HA' y0 n). }
  assert (Z0 : forall y0, z y0 0%nat = XF (kpow y q)).
  { intros y0. unfold z, sp. rewrite xs_0. cbn [fn gn]. destruct (nude_pr F (Y)) as [-> ->]. rewrite ev_1, ev_w, ev_x by apply cst_hom.
    destruct (kdec (k1 : K) k0) as [E|_]; [now destruct (one_nz K E)|]. f_equal. toK. field. apply one_nz. }
  assert (U0 : u 0%nat = XF (kpow y q)) by (unfold u; rewrite xs_0; exact fY).
  assert (T1 : XT K (cst F A') (XF (kpow y q)) (XF y) (u 1%nat) (f (xs F p A (po sA) 1))).
  { rewrite <- U0, <- fX. unfold u. apply fT. apply (xs_XT0 F two elems ND Hall p m Hp Cp Hq Hm A HA sA). now left. }
  assert (T2 : XT K (cst F A') (XF (kpow y q)) (XF y) (z sA' 1%nat) (z (po sA') 1%nat)).
  { rewrite <- (Z0 sA'). unfold z. apply (sp_XT F two A' HA' K (cst F) (cst_hom F) y). apply (xs_XT0 F two elems ND Hall p m Hp Cp Hq Hm A' HA' sA'). now left. }
  assert (UP : u p = XInf) by (unfold u; rewrite HN; exact f0).
  assert (G : forall y0, sgn F m A' y0 -> u 1%nat = z y0 1%nat -> xs F p A' y0 p = XInf).
  { intros y0 H0 E1. pose proof (XT_seq K (cst F A') (XF y) u (z y0) U (Z y0 H0) (eq_trans U0 (eq_sym (Z0 y0))) E1 p) as E. rewrite UP in E. unfold z, sp in E.
    destruct (kdec (ev (cst F) (gn F (xs F p A' y0 p)) y) k0) as [E2|_]; [|discriminate]. apply Htr in E2. destruct (xs F p A' y0 p) as [|v]; [auto|]. exfalso. now apply (de_nz F v). }
  destruct (XT_pair K (cst F A') _ _ _ _ _ _ T1 T2) as [[E _]|[E _]].
  - left. apply G; [now left|exact E].
  - right. apply G; [now right|exact E].
Qed.
Lemma p4 : exists j, (p - 1 = 4 * j + 2)%nat.
Proof.
  assert (E : (p + 1 = 4 * (2 * (2 ^ a * 3 ^ b)))%nat) by (rewrite Hab; cbn [Nat.pow]; lia). exists (2 * (2 ^ a * 3 ^ b) - 1)%nat. lia.
Qed.
Lemma sign A : A * A <> 4 -> nsq (A + 2) -> NPA A <> ((p - 1) * (p - 1))%nat.
Proof.
  intros HA [c Hc] HN. destruct p4 as [j Hj]. set (M := Aff 1 c : point F).
  assert (HM : on A 1 M). { cbn [M on]. rewrite Hc. unfold fx. toF. ring. }
  pose proof (kill_m F two elems ND Hall p m Hp Cp Hq Hm A HA M HN HM) as KM. rewrite Hj in KM.
  assert (D1 : padd A 1 M M = Aff 0 0).
  { pose proof (dblx_pt F two A 1 M HA N1 HM) as D. change (xof M) with (XF (1 : F)) in D. cbn [dblx] in D.
    assert (Nf : fx A 1 <> 0). { unfold fx. intros E. apply HA. assert (E2 : A = - (2)). { transitivity (1 * 1 * 1 + A * (1 * 1) + 1 - 2); [toF; ring|]. rewrite E. toF. ring. } rewrite E2. toF. ring. }
    destruct (kdec (fx A 1) 0) as [|_]; [contradiction|]. pose proof (padd_on F two A 1 HA N1 M M HM HM) as HD. destruct (padd A 1 M M) as [|x y]; [discriminate|].
    cbn [xof] in D. assert (Ex : x = 0). { assert (E : (1 * 1 - 1) * (1 * 1 - 1) / (4 * fx A 1) = x) by congruence. rewrite <- E. assert ((4 : F) <> 0) by (apply (mul_nz F); exact two). toF. field. auto. }
    rewrite Ex in *. f_equal. cbn [on] in HD. apply (sqr_z F). transitivity (1 * (y * y)); [toF; ring|]. rewrite HD. unfold fx. toF. ring. }
  assert (K4 : pmul A 1 4 M = Inf). { rewrite (pm4 F two A HA) by auto. rewrite D1. apply dbl_y0. }
  replace (4 * j + 2)%nat with (j * 4 + 2)%nat in KM by lia. rewrite (pmul_add F two A 1 HA N1), (pmul_mul F two A 1 HA N1), K4, (pmul_inf F A 1), (pmul_2 F A 1), D1 in KM by auto. discriminate.
Qed.
Lemma ss_f A A' f y : SS A -> A' * A' <> 4 -> nsq (A' + 2) -> f XInf = XInf ->
  (forall q1 q2 s d, XT K (cst F A) q1 q2 s d -> XT K (cst F A') (f q1) (f q2) (f s) (f d)) ->
  f (XF X) = XF y -> f (XF (pr F Y)) = XF (kpow y q) -> (forall P, ev (cst F) P y = k0 -> P = pO) -> SS A'.
Proof.
  intros H HA' HS f0 fT fX fY Htr. apply ss_np in H as [HA HN]. apply ss_np. split; auto.
  destruct (transfer A A' f y HA HA' f0 fT fX fY Htr HN) as [E|E]; [exact E|]. exfalso. now apply (sign A' HA' HS).
Qed.
Lemma frobX (f : xl K -> xl K) y : f (XF X) = XF y -> (f (xmap K K (fun z => kpow z q) (XF X)) = xmap K K (fun z => kpow z q) (f (XF X))) -> f (XF (pr F Y)) = XF (kpow y q).
Proof. intros E1 E2. rewrite E1 in E2. cbn [xmap] in E2. rewrite <- E2, pr_w. reflexivity. Qed.
Lemma twoK' : (kadd k1 k1 : K) <> k0. Proof. exact (twoK F two). Qed.
Lemma X_nc c : X <> cst F c.
Proof. intros E. apply (pr_inj F) in E. pose proof (f_equal (sz F) E) as S0. rewrite sz_x in S0. pose proof (sz_le F (pC c) 1) as S1. assert (sz F (pC c) <= 1)%nat; [|lia]. apply S1. intros [|i] Hi; [lia|]. now rewrite cf_C. Qed.
Lemma sq2 (A k : F) : SS A -> ker2 A k -> nsq (A2 k + 2).
Proof.
  intros H Hk. destruct (ker2_rel F A k (proj1 H) Hk) as (_ & E & _). destruct (ss_half A k H E) as (v & _ & Ev & _). destruct sqm1 as [i Ei].
  exists (2 * (i * v)). transitivity (4 * ((i * i) * (v * v))); [toF; ring|]. rewrite Ei, Ev. unfold A2. toF. ring.
Qed.
Lemma sq3 (A t : F) : A * A <> 4 -> nsq (A + 2) -> ker3 A t -> nsq (A3 A t + 2).
Proof.
  intros HA [c Eb] Ht. destruct (ker3_rel F two A t HA Ht) as (Nt & E & N2'). unfold div3 in E.
  assert (N2 : 1 - t <> 0). { intros X0. apply N2'. assert (X1 : t = 1). { transitivity (1 - (1 - t)); [toF; ring|]. rewrite X0. toF. ring. } rewrite X1. toF. ring. }
  assert (EA : A = (1 - 2 * (3 * (t * t)) - 3 * (t * t * (t * t))) / (4 * (t * t * t))).
  { transitivity ((4 * (A * (t * t * t))) / (4 * (t * t * t))); [toF; field; split; [exact Nt|apply (mul_nz F); exact two]|]. f_equal.
    apply (sub_eq F). rewrite <- E. toF. ring. }
  exists (t * c * (1 + 3 * t) / (1 - t)).
  transitivity (t * t * (c * c) * ((1 + 3 * t) * (1 + 3 * t)) / ((1 - t) * (1 - t))); [toF; field; auto|]. rewrite Eb. unfold A3. rewrite EA. toF. field.
  repeat split; auto. apply (mul_nz F); exact two.
Qed.
Lemma fr_cst c : kpow (cst F c) q = cst F c. Proof. apply (cst_q F elems ND Hall p Hq). Qed.
Lemma ss_2' (A k : F) : SS A -> ker2 A k -> SS (A2 k).
Proof.
  intros H Hk. pose proof (proj1 H) as HA. pose proof (hker2 F K (cst F) (cst_hom F) A k Hk) as HkK. pose proof (HAK F A HA) as HAK0. pose proof (frobK F p Hp Cp) as FK.
  assert (ND0 : X - cst F k <> 0) by (apply (sub_nz K), X_nc).
  assert (EX : phi2x (cst F k) (XF X) = XF (X * (cst F k * X - 1) / (X - cst F k))).
  { cbn [phi2x]. destruct (kdec X (cst F k)) as [E|_]; [now destruct (X_nc k)|reflexivity]. }
  apply (ss_f A (A2 k) (phi2x (cst F k)) (X * (cst F k * X - 1) / (X - cst F k)) H).
  - exact (cod2 F two A HA k Hk).
  - now apply (sq2 A).
  - reflexivity.
  - intros. rewrite (hA2 F K (cst F) (cst_hom F)). apply XT_phi2 with (1 := HAK0); auto.
  - exact EX.
  - apply frobX; [exact EX|]. pose proof (hphi2 K K (fun z => kpow z q) FK (cst F k) (XF X)) as T. cbn beta in T. rewrite fr_cst in T. exact T.
  - apply (tran0 F _ (px * (pC k * px - 1))%P (px - pC k)%P).
    + rewrite pr_mul, !pr_sub, pr_mul. change (pr F 1) with (k1 : K). change (pr F (pC k)) with (cst F k). toK. field. auto.
    + apply lin_nz.
    + rewrite (proj1 (sz_lin F k)). assert (Nk : k <> 0) by apply Hk.
      assert (S1 : (sz F (po pI) < sz F (pC k * px)%P)%nat).
      { destruct (sz_m F (pC k) px (C_nz F k Nk) (x_nz F)) as (_ & S0 & _). rewrite sz_x, (sz_C F k Nk) in S0. rewrite sz_o, sz_I. lia. }
      destruct (sz_lt F _ _ S1) as [S2 _]. destruct (sz_m F (pC k) px (C_nz F k Nk) (x_nz F)) as (_ & S0 & _). rewrite sz_x, (sz_C F k Nk) in S0.
      replace (pC k * px - 1)%P with (pC k * px + po pI)%P by ring. assert (NN : (pC k * px + po pI)%P <> pO) by (intros Z; rewrite Z, sz_O in S2; lia).
      destruct (sz_m F px _ (x_nz F) NN) as (_ & S3 & _). rewrite sz_x in S3. lia.
Qed.
Lemma ss_3' (A k : F) : SS A -> ker3 A k -> SS (A3 A k).
Proof.
  intros H Hk. pose proof (proj1 H) as HA. pose proof (hker3 F K (cst F) (cst_hom F) A k Hk) as HkK. pose proof (HAK F A HA) as HAK0. pose proof (frobK F p Hp Cp) as FK.
  assert (ND0 : X - cst F k <> 0) by (apply (sub_nz K), X_nc). set (y := X * ((cst F k * X - 1) * (cst F k * X - 1)) / ((X - cst F k) * (X - cst F k))).
  assert (EX : phi3x (cst F k) (XF X) = XF y).
  { cbn [phi3x]. destruct (kdec X (cst F k)) as [E|_]; [now destruct (X_nc k)|reflexivity]. }
  apply (ss_f A (A3 A k) (phi3x (cst F k)) y H).
  - exact (cod3 F (k0 : F) (fun x : F => x) (fun _ _ : F => false) (fun _ : F => @nil Z) (fun _ : list Z => (k0 : F)) (fun _ : tape => @NoTape (F * tape)) two A HA k Hk).
  - apply sq3; auto. now apply ss_sqr.
  - reflexivity.
  - intros. rewrite (hA3 F K (cst F) (cst_hom F)). apply XT_phi3 with (1 := twoK') (2 := HAK0); auto.
  - exact EX.
  - apply frobX; [exact EX|]. pose proof (hphi3 K K (fun z => kpow z q) FK (cst F k) (XF X)) as T. cbn beta in T. rewrite fr_cst in T. exact T.
  - apply (tran0 F _ (px * ((pC k * px - 1) * (pC k * px - 1)))%P ((px - pC k) * (px - pC k))%P).
    + unfold y. rewrite !pr_mul, !pr_sub, pr_mul. change (pr F 1) with (k1 : K). change (pr F (pC k)) with (cst F k). toK. field. auto.
    + apply m_nz; apply lin_nz.
    + destruct (ker3_rel F two A k HA Hk) as (Nk & _ & _). destruct (sz_m F _ _ (lin_nz F k) (lin_nz F k)) as (_ & SD & _). rewrite (proj1 (sz_lin F k)) in SD.
      assert (S1 : (sz F (po pI) < sz F (pC k * px)%P)%nat).
      { destruct (sz_m F (pC k) px (C_nz F k Nk) (x_nz F)) as (_ & S0 & _). rewrite sz_x, (sz_C F k Nk) in S0. rewrite sz_o, sz_I. lia. }
      destruct (sz_lt F _ _ S1) as [S2 _]. destruct (sz_m F (pC k) px (C_nz F k Nk) (x_nz F)) as (_ & S0 & _). rewrite sz_x, (sz_C F k Nk) in S0.
      replace (pC k * px - 1)%P with (pC k * px + po pI)%P by ring. assert (NN : (pC k * px + po pI)%P <> pO) by (intros Z; rewrite Z, sz_O in S2; lia).
      destruct (sz_m F _ _ NN NN) as (NNN & S3 & _). destruct (sz_m F px _ (x_nz F) NNN) as (_ & S4 & _). rewrite sz_x in S4. lia.
Qed.
Theorem maximal_class : isog_class SS.
Proof.
  split; [exact ss_full4'|exact ss_iso'|exact ss_2'| |exact ss_3'].
  intros A k H (t & Nt & E1 & E2).

  pose proof (ss_2' A t H (ker2_m4 F A t Nt E2)) as H2.
    pose proof (ker2_kk F two A k t (proj1 H) Nt E1 E2) as Hk. pose proof (ss_2' _ _ H2 Hk) as H4.
    set (c := A2 (k * k)) in *. assert (HI : iso_to c (A4 k) 0 (- (1))).
    { rewrite A4_A2. fold c. split; [intros Z; apply (one_nz F); transitivity (- - (1) : F); [toF; ring|]; rewrite Z; toF; ring|].
      unfold fx. repeat split; toF; ring. }
    exact (ss_iso' c (A4 k) 0 (- (1)) H4 HI).
Qed.
End Cl.
