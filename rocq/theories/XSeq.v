(** Maps of fields, and the multiples of a point from the relation between sums and differences (proofs only). *)
From Coq Require Import Field.
From Verif Require Import Base Out Params Ops Ec Models Fld FieldOps CurveSpec IsogSpec ModelSpec XSpec WalkSpec FldCurve GroupP MultP IsoP FldIsog FldModels
  XLine XIso Strategy XChain CheckP XIsog WalkP OrderP SquareP KumP RatFun PolyEv.
Set Bullet Behavior "Strict Subproofs".

(** ** Maps of fields *)
Section H.
Variables F L : fld.
Variable f : F -> L.
Hypothesis Hf : fhom f.
Local Open Scope fld_scope.
Definition kth22 := kth L.
Add Field KF22 : kth22.
Definition kth23 := kth F.
Add Field KF23 : kth23.
Ltac toL := match goal with |- ?a = ?b => change (@eq (K L) a b) end.
Lemma h1 : f 1 = 1. Proof. apply Hf. Qed.
Lemma hadd x y : f (x + y) = f x + f y. Proof. apply Hf. Qed.
Lemma hmul x y : f (x * y) = f x * f y. Proof. apply Hf. Qed.
Lemma h0 : f 0 = 0.
Proof.
  assert (E : f 0 = f 0 + f 0) by (rewrite <- hadd; f_equal; change (@eq (K F) 0 (0 + 0)); ring).
  transitivity (f 0 + f 0 - f 0); [toL; ring|]. rewrite <- E. ring.
Qed.
Lemma hopp x : f (- x) = - f x.
Proof.
  assert (E : f (- x) + f x = 0) by (rewrite <- hadd; transitivity (f 0); [f_equal; change (@eq (K F) (- x + x) 0); ring|apply h0]).
  transitivity (f (- x) + f x - f x); [toL; ring|]. rewrite E. ring.
Qed.
Lemma hsub x y : f (x - y) = f x - f y.
Proof. transitivity (f (x + - y)); [f_equal; change (@eq (K F) (x - y) (x + - y)); ring|]. rewrite hadd, hopp. ring. Qed.
Lemma hnz x : x <> 0 -> f x <> 0.
Proof.
  intros N E. apply (one_nz L). rewrite <- h1. transitivity (f (x * (1 / x))); [f_equal; change (@eq (K F) 1 (x * (1 / x))); field; auto|].
  rewrite hmul, E. ring.
Qed.
Lemma hinj x y : f x = f y -> x = y.
Proof.
  intros E. destruct (kdec x y) as [|N]; auto. exfalso. apply (hnz (x - y)); [apply (sub_nz F); auto|]. rewrite hsub, E. ring.
Qed.
Lemma hdiv x y : y <> 0 -> f (x / y) = f x / f y.
Proof.
  intros N. pose proof (hnz y N) as N'. transitivity (f (x / y) * f y / f y); [toL; field; auto|]. f_equal.
  rewrite <- hmul. f_equal. change (@eq (K F) (x / y * y) x). field. auto.
Qed.
Lemma h2 : f 2 = 2. Proof. rewrite hadd, h1. reflexivity. Qed.
Lemma h3 : f 3 = 3. Proof. rewrite !hadd, h1. reflexivity. Qed.
Lemma h4 : f 4 = 4. Proof. rewrite hmul, h2. reflexivity. Qed.
Ltac hh := repeat rewrite ?hadd, ?hmul, ?hsub, ?hopp, ?h0, ?h1.
Lemma hfx A x : f (fx A x) = fx (f A) (f x). Proof. unfold fx. hh. reflexivity. Qed.
Hypothesis two : (kadd k1 k1 : F) <> k0.
Lemma two' : (kadd k1 k1 : L) <> k0.
Proof. rewrite <- h2. now apply hnz. Qed.
Lemma hns A : A * A <> 4 -> f A * f A <> 4.
Proof. intros HA E. apply HA, hinj. rewrite hmul, h4. exact E. Qed.
Lemma hkn n : f (kn n) = kn n. Proof. induction n as [|n IH]; cbn [kn]; [apply h0|]. now rewrite hadd, h1, IH. Qed.
Lemma hkpow x n : f (kpow x n) = kpow (f x) n. Proof. induction n as [|n IH]; cbn [kpow]; [apply h1|]. now rewrite hmul, IH. Qed.
Definition xmap (q : xl F) : xl L := match q with XInf => XInf | XF x => XF (f x) end.
Lemma hker2 A m : ker2 A m -> ker2 (f A) (f m).
Proof.
  intros [N E]. split; [now apply hnz|]. cbn [dblx] in *. destruct (kdec (fx A m) 0) as [E0|]; [|discriminate].
  destruct (kdec (fx (f A) (f m)) 0) as [_|X]; [reflexivity|]. exfalso. apply X. rewrite <- hfx, E0. apply h0.
Qed.
Lemma hdiv3 A x : f (div3 A x) = div3 (f A) (f x). Proof. unfold div3. hh. reflexivity. Qed.
Lemma hker3 A t : ker3 A t -> ker3 (f A) (f t).
Proof. rewrite (ker3_div F), (ker3_div L). intros E. rewrite <- hdiv3, E. apply h0. Qed.
Lemma hA2 m : f (A2 m) = A2 (f m). Proof. unfold A2. hh. reflexivity. Qed.
Lemma hA3 A t : f (A3 A t) = A3 (f A) (f t). Proof. unfold A3. hh. reflexivity. Qed.
Lemma hphi2 k q : phi2x (f k) (xmap q) = xmap (phi2x k q).
Proof.
  destruct q as [|x]; [reflexivity|]. cbn [xmap phi2x]. destruct (kdec x k) as [->|N].
  - destruct (kdec (f k) (f k)); [reflexivity|contradiction].
  - destruct (kdec (f x) (f k)) as [X|_]; [exfalso; apply N, hinj, X|]. cbn [xmap]. f_equal. rewrite hdiv by (apply (sub_nz F); auto). hh. reflexivity.
Qed.
Lemma hphi3 k q : phi3x (f k) (xmap q) = xmap (phi3x k q).
Proof.
  destruct q as [|x]; [reflexivity|]. cbn [xmap phi3x]. destruct (kdec x k) as [->|N].
  - destruct (kdec (f k) (f k)); [reflexivity|contradiction].
  - destruct (kdec (f x) (f k)) as [X|_]; [exfalso; apply N, hinj, X|]. cbn [xmap]. f_equal.
    rewrite hdiv by (apply (mul_nz F); apply (sub_nz F); auto). hh. reflexivity.
Qed.
Lemma hisox r u q : u <> 0 -> isox (f r) (f u) (xmap q) = xmap (isox r u q).
Proof. intros N. destruct q as [|x]; [reflexivity|]. cbn [xmap isox]. f_equal. rewrite hdiv by auto. hh. reflexivity. Qed.
Lemma hiso_to A B r u : iso_to A B r u -> iso_to (f A) (f B) (f r) (f u).
Proof.
  intros (N & E1 & E2 & E3). split; [now apply hnz|]. split; [rewrite <- hfx, E1; apply h0|].
  split; [rewrite <- hmul, E2; hh; reflexivity|rewrite <- hmul, E3; hh; reflexivity].
Qed.
End H.

(** ** The relation between sums and differences determines multiples *)
Section X.
Variable L : fld.
Hypothesis two : (kadd k1 k1 : L) <> k0.
Local Open Scope fld_scope.
Definition kth24 := kth L.
Add Field KF24 : kth24.
Ltac toL := match goal with |- ?a = ?b => change (@eq (K L) a b) end.
Local Notation dm T := (T L (k0 : L) (fun x : L => x) (fun _ _ : L => false) (fun _ : L => @nil Z) (fun _ : list Z => (k0 : L)) (fun _ : tape => @NoTape (L * tape))).
Lemma XT_uniq (A : L) q1 q2 s s' d : XT L A q1 q2 s d -> XT L A q1 q2 s' d -> s = s'.
Proof.
  intros H H'. destruct (rep_ex L q1) as (X1 & Z1 & R1). destruct (rep_ex L q2) as (X2 & Z2 & R2).
  destruct (rep_ex L s) as (Xs & Zs & Rs). destruct (rep_ex L s') as (Xs' & Zs' & Rs'). destruct (rep_ex L d) as (Xd & Zd & Rd).
  destruct (XT_any L A _ _ _ _ _ _ _ _ _ _ _ _ H R1 R2 Rs Rd) as (l & Nl & E1 & E2 & E3).
  destruct (XT_any L A _ _ _ _ _ _ _ _ _ _ _ _ H' R1 R2 Rs' Rd) as (l' & Nl' & E1' & E2' & E3').
  set (a := l' * Xs - l * Xs'). set (b := l' * Zs - l * Zs').
  assert (Q1 : a * Xd = 0). { unfold a. transitivity (l' * (Xs * Xd) - l * (Xs' * Xd)); [ring|]. rewrite E1, E1'. ring. }
  assert (Q3 : b * Zd = 0). { unfold b. transitivity (l' * (Zs * Zd) - l * (Zs' * Zd)); [ring|]. rewrite E3, E3'. ring. }
  assert (Q2 : a * Zd + b * Xd = 0). { unfold a, b. transitivity (l' * (Xs * Zd + Xd * Zs) - l * (Xs' * Zd + Xd * Zs')); [ring|]. rewrite E2, E2'. ring. }
  assert (Q : a = 0 /\ b = 0).
  { destruct (kdec Zd 0) as [Ez|Nz].
    - assert (Nx : Xd <> 0). { destruct d as [|x]; cbn in Rd; destruct Rd; [auto|contradiction]. }
      assert (a = 0) by (apply (mul_cancel L) with Xd; auto; rewrite Q1; ring). split; auto.
      apply (mul_cancel L) with Xd; auto. transitivity (a * Zd + b * Xd); [rewrite H0; ring|rewrite Q2; ring].
    - assert (b = 0) by (apply (mul_cancel L) with Zd; auto; rewrite Q3; ring). split; auto.
      apply (mul_cancel L) with Zd; auto. transitivity (a * Zd + b * Xd); [rewrite H0; ring|rewrite Q2; ring]. }
  destruct Q as [Qa Qb]. unfold a, b in *. apply (rep_prop L l' l Xs Zs Xs' Zs' s s'); auto; apply (sub_eq L); auto.
Qed.
Lemma xof_neg (M : point L) : xof (neg M) = xof M. Proof. now destruct M. Qed.
(** A map that keeps the relation commutes with multiples. *)
Lemma pm_x (A B A' B' : L) f M M' : A * A <> 4 -> A' * A' <> 4 -> B <> 0 -> B' <> 0 -> on A B M -> on A' B' M' -> f XInf = XInf ->
  (forall q1 q2 s d, XT L A q1 q2 s d -> XT L A' (f q1) (f q2) (f s) (f d)) -> xof M' = f (xof M) ->
  forall n, xof (pmul A' B' n M') = f (xof (pmul A B n M)) /\ xof (pmul A' B' (S n) M') = f (xof (pmul A B (S n) M)).
Proof.
  intros HA HA' HB HB' HM HM' Hi HX HE n. induction n as [|n [I1 I2]].
  - cbn [pmul xof]. rewrite !padd_inf_r'. auto.
  - split; [exact I2|].
    assert (G : forall (A B : L) M, A * A <> 4 -> B <> 0 -> on A B M ->
      XT L A (xof M) (xof (pmul A B (S n) M)) (xof (pmul A B (S (S n)) M)) (xof (pmul A B n M))).
    { clear - two. intros A B M HA HB HM. pose proof (pmul_on L two A B HA HB n M HM) as Hn. pose proof (pmul_on L two A B HA HB (S n) M HM) as HSn.
      pose proof (XT_pt L two A B HA HB M (pmul A B (S n) M) HM HSn) as H.
      replace (xof (pmul A B n M)) with (xof (padd A B M (neg (pmul A B (S n) M)))); [exact H|].
      cbn [pmul]. rewrite (neg_padd L two A B HA HB) by auto.
      rewrite <- (neg_neg L M) at 1. rewrite (padd_cancel L two A B HA HB) by (apply neg_on; auto). apply xof_neg. }
    pose proof (G A' B' M' HA' HB' HM') as T'. pose proof (HX _ _ _ _ (G A B M HA HB HM)) as T.
    rewrite HE, I1, I2 in T'. exact (XT_uniq _ _ _ _ _ _ T' T).
Qed.
Lemma same_x (A B : L) M N : A * A <> 4 -> B <> 0 -> on A B M -> on A B N -> xof M = xof N -> N = M \/ N = neg M.
Proof.
  intros HA HB HM HN E. destruct M as [|x y], N as [|x' y']; cbn in E; try discriminate; auto.
  injection E as <-. destruct (kdec (y + y') 0) as [Z0|Nz].
  - right. cbn. f_equal. transitivity (y + y' - y); [toL; ring|]. rewrite Z0. ring.
  - left. f_equal. symmetry. eapply (y_cases L A B HB); eauto.
Qed.
(** p = 3 (mod 4), p = 7 (mod 8) and points killed by 4 or 8 *)
Lemma pm_neg (A : L) p l M : A * A <> 4 -> on A 1 M -> (1 <= l)%nat -> (p mod l = l - 1)%nat -> pmul A 1 l M = Inf -> pmul A 1 p M = neg M.
Proof.
  intros HA HM Hl Hp HK. pose proof (one_nz L) as H1. rewrite (kill_mod L two A 1 HA H1 l p M HM ltac:(lia) HK), Hp.
  apply (padd_opp_eq L two A 1 HA H1 M); auto; [apply (pmul_on L two A 1 HA H1); auto|].
  transitivity (pmul A 1 (S (l - 1)) M); [reflexivity|]. replace (S (l - 1)) with l by lia. exact HK.
Qed.
Lemma dbl_x (A : L) M : A * A <> 4 -> on A 1 M -> xof (pmul A 1 2 M) = dblx A (xof M).
Proof. intros HA HM. rewrite (pmul_2 L A 1). symmetry. apply (dblx_pt L two); auto. apply (one_nz L). Qed.
Lemma dbl_xn (A : L) n M : A * A <> 4 -> on A 1 M -> xof (pmul A 1 (2 ^ n) M) = Nat.iter n (dblx A) (xof M).
Proof.
  intros HA HM. induction n as [|n IH]; [rewrite pmul_1; reflexivity|]. cbn [Nat.pow]. rewrite (pmul_mul L two A 1 HA (one_nz L)) by auto.
  rewrite dbl_x by (auto; apply (pmul_on L two A 1 HA (one_nz L)); auto). rewrite IH. reflexivity.
Qed.
Lemma kill_x (A : L) n M : A * A <> 4 -> on A 1 M -> Nat.iter n (dblx A) (xof M) = XInf -> pmul A 1 (2 ^ n) M = Inf.
Proof. intros HA HM E. rewrite <- dbl_xn in E by auto. apply (xof_inf L). exact E. Qed.
(** The two values in the relation are determined up to order. *)
Lemma XT_pair (A : L) q1 q2 s d s' d' : XT L A q1 q2 s d -> XT L A q1 q2 s' d' -> s = s' /\ d = d' \/ s = d' /\ d = s'.
Proof.
  intros H H'. assert (G : s' = s \/ s' = d).
  { destruct (rep_ex L q1) as (X1 & Z1 & R1). destruct (rep_ex L q2) as (X2 & Z2 & R2).
    destruct (rep_ex L s) as (Xs & Zs & Rs). destruct (rep_ex L d) as (Xd & Zd & Rd). destruct (rep_ex L s') as (Xs' & Zs' & Rs'). destruct (rep_ex L d') as (Xd' & Zd' & Rd').
    destruct (XT_any L A _ _ _ _ _ _ _ _ _ _ _ _ H R1 R2 Rs Rd) as (l & Nl & E1 & E2 & E3).
    destruct (XT_any L A _ _ _ _ _ _ _ _ _ _ _ _ H' R1 R2 Rs' Rd') as (l' & Nl' & E1' & E2' & E3').
    set (v1 := V1 L X1 Z1 X2 Z2) in *. set (v2 := V2 L A X1 Z1 X2 Z2) in *. set (v3 := V3 L X1 Z1 X2 Z2) in *.
    assert (Q : (Xs' * Zs - Zs' * Xs) * (Xs' * Zd - Zs' * Xd) = 0).
    { apply (mul_cancel L) with l'; auto.
      transitivity (Xs' * Xs' * (Zs * Zd) * l' - Xs' * Zs' * (Xs * Zd + Xd * Zs) * l' + Zs' * Zs' * (Xs * Xd) * l'); [toL; ring|].
      rewrite E1, E2, E3. transitivity (l * (Xs' * Xs' * (l' * v3) - Xs' * Zs' * (l' * v2) + Zs' * Zs' * (l' * v1))); [toL; ring|].
      rewrite <- E1', <- E2', <- E3'. toL; ring. }
    assert (U : forall X Z q, rep X Z q -> Xs' * Z - Zs' * X = 0 -> s' = q).
    { intros Y Z q RY E. apply (sub_eq L) in E. destruct s' as [|x'], q as [|x]; cbn in Rs', RY; destruct Rs' as [N1 M1], RY as [N2 M2]; auto.
      - exfalso. apply (mul_nz L Xs' Z N1 N2). rewrite E, M1. ring.
      - exfalso. apply (mul_nz L Zs' Y N1 N2). rewrite <- E, M2. ring.
      - f_equal. apply (mul_cancel L) with (Zs' * Z); [apply (mul_nz L); auto|]. transitivity (x' * Zs' * Z); [toL; ring|]. rewrite <- M1, E, M2. toL; ring. }
    destruct (kdec (Xs' * Zs - Zs' * Xs) 0) as [Z|N]; [left; eapply U; eauto|]. right. apply (U Xd Zd d Rd).
    apply (mul_cancel L) with (Xs' * Zs - Zs' * Xs); auto. transitivity ((Xs' * Zs - Zs' * Xs) * (Xs' * Zd - Zs' * Xd)); [toL; ring|]. rewrite Q. toL; ring. }
  destruct G as [->| ->].
  - left. split; [reflexivity|]. apply XT_swap in H, H'. exact (XT_uniq _ _ _ _ _ _ H H').
  - right. split; [|reflexivity]. apply XT_swap in H'. exact (XT_uniq _ _ _ _ _ _ H H').
Qed.
(** M0 + n M *)
Definition pseq (A B : L) M0 M n := padd A B M0 (pmul A B n M).
Lemma pseq_on (A B : L) M0 M n : A * A <> 4 -> B <> 0 -> on A B M0 -> on A B M -> on A B (pseq A B M0 M n).
Proof. intros HA HB H0 HM. apply (padd_on L two A B HA HB); auto. now apply (pmul_on L two A B HA HB). Qed.
Lemma pseq_XT (A B : L) M0 M n : A * A <> 4 -> B <> 0 -> on A B M0 -> on A B M ->
  XT L A (xof (pseq A B M0 M (S n))) (xof M) (xof (pseq A B M0 M (S (S n)))) (xof (pseq A B M0 M n)).
Proof.
  intros HA HB H0 HM. pose proof (fun n => pmul_on L two A B HA HB n M HM) as Hn. pose proof (neg_on L A B M HM) as HnM.
  pose proof (XT_pt L two A B HA HB (pseq A B M0 M (S n)) M (pseq_on A B M0 M (S n) HA HB H0 HM) HM) as H.
  assert (C : forall n, pmul A B (S n) M = padd A B (pmul A B n M) M). { intros k. cbn [pmul]. apply (padd_comm L two A B HA HB); auto. }
  replace (padd A B (pseq A B M0 M (S n)) M) with (pseq A B M0 M (S (S n))) in H.
  2: { unfold pseq. rewrite (padd_assoc L two A B HA HB) by auto. now rewrite <- C. }
  replace (padd A B (pseq A B M0 M (S n)) (neg M)) with (pseq A B M0 M n) in H; [exact H|].
  unfold pseq. rewrite (padd_assoc L two A B HA HB) by auto. f_equal. rewrite C, (padd_assoc L two A B HA HB), (padd_neg L), padd_inf_r' by auto. reflexivity.
Qed.
Lemma pseq_XT0 (A B : L) M0 M : A * A <> 4 -> B <> 0 -> on A B M0 -> on A B M ->
  XT L A (xof (pseq A B M0 M 0)) (xof M) (xof (pseq A B M0 M 1)) (xof (pseq A B (neg M0) M 1)).
Proof.
  intros HA HB H0 HM. pose proof (XT_pt L two A B HA HB M0 M H0 HM) as H. unfold pseq. cbn [pmul]. rewrite !padd_inf_r'.
  replace (xof (padd A B (neg M0) M)) with (xof (padd A B M0 (neg M))); [exact H|].
  rewrite <- (xof_neg (padd A B M0 (neg M))), (neg_padd L two A B HA HB), neg_neg by (auto; apply neg_on; auto). reflexivity.
Qed.
Lemma pmul_XT (A B : L) M n : A * A <> 4 -> B <> 0 -> on A B M ->
  XT L A (xof (pmul A B (S n) M)) (xof M) (xof (pmul A B (S (S n)) M)) (xof (pmul A B n M)).
Proof. intros HA HB HM. exact (pseq_XT A B Inf M n HA HB I HM). Qed.
(** A sequence that satisfies the relation is determined by its first two values. *)
Lemma XT_seq (A : L) y (a b : nat -> xl L) : (forall n, XT L A (a (S n)) y (a (S (S n))) (a n)) -> (forall n, XT L A (b (S n)) y (b (S (S n))) (b n)) ->
  a 0%nat = b 0%nat -> a 1%nat = b 1%nat -> forall n, a n = b n.
Proof.
  intros Ha Hb E0 E1 n. enough (a n = b n /\ a (S n) = b (S n)) by tauto. induction n as [|n [I1 I2]]; auto. split; auto.
  pose proof (Ha n) as H. rewrite I1, I2 in H. exact (XT_uniq _ _ _ _ _ _ H (Hb n)).
Qed.
End X.

