(** An odd multiple of a point of order 2^n generates the same group: the same quotient. *)
From Coq Require Import Field.
From Verif Require Import Base BaseP Out Params Ops Ec Models Fld FieldOps CurveSpec IsogSpec ModelSpec XSpec WalkSpec FldCurve GroupP MultP IsoP FldIsog FldModels
  XLine XIso Strategy XChain CheckP XIsog WalkP SquareP KumP GridP BasisP IsoStepP IsoChainP.
Set Bullet Behavior "Strict Subproofs".

Section OD.
Variable F : fld.
Hypothesis two : (kadd k1 k1 : F) <> k0.
Local Open Scope fld_scope.
Definition kth19 := kth F.
Add Field KF19 : kth19.
Ltac toF_eq := match goal with |- ?a = ?b => change (@eq (K F) a b) end.
Implicit Types (A B k x t u r : F) (p q s d : xl F) (f g : xl F -> xl F) (M N : point F).
Local Notation dm T := (T F (k0 : F) (fun x : F => x) (fun _ _ : F => false) (fun _ : F => @nil Z) (fun _ : list Z => (k0 : F)) (fun _ : tape => @NoTape (F * tape))).
Local Notation dn T := (T F (fun x : F => x) (fun _ _ : F => false) (fun _ : F => @nil Z) (fun _ : list Z => (k0 : F)) (fun _ : tape => @NoTape (F * tape))).
Notation ord4 := (ord4 F). Notation xhom := (xhom F). Notation XT := (XT F). Notation G2 := (G2 F).

Lemma XT_unique A q1 q2 s s' d : XT A q1 q2 s d -> XT A q1 q2 s' d -> s = s'.
Proof.
  intros H H'. pose proof H as (X1 & Z1 & X2 & Z2 & Xs & Zs & Xd & Zd & l & Nl & R1 & R2 & Rs & Rd & E1 & E2 & E3).
  pose proof H' as (_ & _ & _ & _ & Xs' & Zs' & _ & _ & _ & _ & _ & _ & Rs' & _).
  destruct (XT_any F _ _ _ _ _ X1 Z1 X2 Z2 Xs' Zs' Xd Zd H' R1 R2 Rs' Rd) as (l' & Nl' & E1' & E2' & E3').
  assert (F1 : l' * (Xs * Xd) = l * (Xs' * Xd)) by (rewrite E1, E1'; ring).
  assert (F2 : l' * (Xs * Zd + Xd * Zs) = l * (Xs' * Zd + Xd * Zs')) by (rewrite E2, E2'; ring).
  assert (F3 : l' * (Zs * Zd) = l * (Zs' * Zd)) by (rewrite E3, E3'; ring).
  assert (G : l' * Xs = l * Xs' /\ l' * Zs = l * Zs').
  { destruct (kdec Zd 0) as [Ez|Nz].
    - assert (Nx : Xd <> 0) by (destruct d; cbn in Rd; [apply Rd|destruct Rd; contradiction]).
      assert (Y : l' * Xs = l * Xs'). { apply (mul_cancel F) with Xd; [auto|]. transitivity (l' * (Xs * Xd)); [ring|]. rewrite F1. ring. }
      split; [auto|]. apply (mul_cancel F) with Xd; [auto|]. transitivity (l' * (Xs * Zd + Xd * Zs)); [rewrite Ez; ring|]. rewrite F2, Ez. ring.
    - assert (Y : l' * Zs = l * Zs'). { apply (mul_cancel F) with Zd; [auto|]. transitivity (l' * (Zs * Zd)); [ring|]. rewrite F3. ring. }
      split; [|auto]. apply (mul_cancel F) with Zd; [auto|]. transitivity (l' * (Xs * Zd + Xd * Zs) - Xd * (l' * Zs)); [ring|]. rewrite F2, Y. ring. }
  destruct G as [G1 G2]. exact (rep_prop F l' l _ _ _ _ s s' Nl' Nl G1 G2 Rs Rs').
Qed.
(** Maps of x-coordinates that come from homomorphisms commute with multiples. *)
Lemma xhom_mul A B A1 B1 f M N : A * A <> 4 -> B <> 0 -> A1 * A1 <> 4 -> B1 <> 0 -> xhom A A1 f -> on A B M -> on A1 B1 N -> xof N = f (xof M) ->
  forall i, f (xof (pmul A B i M)) = xof (pmul A1 B1 i N).
Proof.
  intros HA HB HA1 HB1 (H0 & _ & _ & _ & HX) HM HN E.
  assert (H : forall i, f (xof (pmul A B i M)) = xof (pmul A1 B1 i N) /\ f (xof (pmul A B (S i) M)) = xof (pmul A1 B1 (S i) N)).
  { induction i as [|i [I1 I2]].
    - split; [exact H0|]. rewrite !pmul_1. auto.
    - split; [auto|]. pose proof (pmul_on F two A B HA HB) as On. pose proof (pmul_on F two A1 B1 HA1 HB1) as On1.
      pose proof (XT_pt F two A B HA HB (pmul A B (S i) M) M (On _ _ HM) HM) as T.
      pose proof (XT_pt F two A1 B1 HA1 HB1 (pmul A1 B1 (S i) N) N (On1 _ _ HN) HN) as T1.
      apply HX in T.
      assert (U : forall (a b : F) (P : point F), a * a <> 4 -> b <> 0 -> on a b P -> padd a b (pmul a b (S i) P) P = pmul a b (S (S i)) P /\ padd a b (pmul a b (S i) P) (neg P) = pmul a b i P).
      { intros a b P Ha Hb HP. split.
        - rewrite <- (pmul_1 F a b P) at 2. rewrite <- (pmul_add F two a b Ha Hb) by auto. f_equal. lia.
        - pose proof (pmul_sub F two a b Ha Hb (S i) 1 P HP ltac:(lia)) as Y. rewrite pmul_1 in Y. rewrite <- Y. f_equal. lia. }
      destruct (U A B M HA HB HM) as [U1 U2]. destruct (U A1 B1 N HA1 HB1 HN) as [U3 U4]. rewrite U1, U2 in T. rewrite U3, U4 in T1.
      rewrite I1, I2, <- E in T. exact (XT_unique _ _ _ _ _ _ T T1). }
  intros i. apply H.
Qed.
(** Odd multiples of a point of order 4. *)
Lemma odd4 A B M j : A * A <> 4 -> B <> 0 -> on A B M -> pmul A B 4 M = Inf -> xof (pmul A B (2 * j + 1) M) = xof M.
Proof.
  intros HA HB HM H4. pose proof (pmul_on F two A B HA HB) as On.
  assert (H : forall j, pmul A B (4 * j) M = Inf). { intros i. rewrite Nat.mul_comm, (pmul_mul F two A B HA HB), H4 by auto. apply pmul_inf. }
  assert (E : pmul A B (2 * j + 1) M = M \/ pmul A B (2 * j + 1) M = neg M).
  { rewrite (Nat.div_mod_eq j 2). set (h := (j / 2)%nat). pose proof (Nat.mod_upper_bound j 2 ltac:(lia)) as Hb. destruct (j mod 2)%nat as [|[|b]]; [| |lia].
    - left. replace (2 * (2 * h + 0) + 1)%nat with (4 * h + 1)%nat by lia. rewrite (pmul_add F two A B HA HB), H by auto. rewrite pmul_1. reflexivity.
    - right. replace (2 * (2 * h + 1) + 1)%nat with (4 * h + 3)%nat by lia. rewrite (pmul_add F two A B HA HB), H by auto.
      change (padd A B Inf (pmul A B 3 M)) with (pmul A B 3 M).
      pose proof (pmul_sub F two A B HA HB 4 1 M HM ltac:(lia)) as Y. rewrite pmul_1, H4 in Y. exact Y. }
  destruct E as [-> | ->]; [reflexivity|]. now destruct M.
Qed.
Lemma odd_swap A B M a b : A * A <> 4 -> B <> 0 -> on A B M -> pmul A B a (pmul A B b M) = pmul A B b (pmul A B a M).
Proof. intros HA HB HM. rewrite <- !(pmul_mul F two A B HA HB) by auto. f_equal. lia. Qed.
Section Odd.
Variable j : nat.
Notation m := (2 * j + 1)%nat.
Lemma odd_iter A B M n : A * A <> 4 -> B <> 0 -> on A B M -> Nat.iter (S (S n)) (dblx A) (xof M) = XInf ->
  Nat.iter n (dblx A) (xof (pmul A B m M)) = Nat.iter n (dblx A) (xof M).
Proof.
  intros HA HB HM H. pose proof (pmul_on F two A B HA HB) as On. rewrite !(dbl_pt F two A B HA HB) in * by auto.
  rewrite odd_swap by auto. apply odd4; auto. apply xinf in H. rewrite <- (pmul_mul F two A B HA HB) by auto. rewrite <- H. f_equal. cbn. lia.
Qed.
Lemma chain4_odd n : forall A B M s, A * A <> 4 -> B <> 0 -> on A B M -> (n = 0%nat \/ ord4 n A (xof M)) ->
  chain4 n A (xof (pmul A B m M)) s = chain4 n A (xof M) s.
Proof.
  induction n as [|n IH]; intros A B M s HA HB HM Ho; [reflexivity|]. destruct Ho as [|Ho]; [discriminate|].
  destruct (dn ord4_S n A _ Ho) as (k & m0 & Ek & Nm & E1 & E2).
  assert (Hk : ker4 A k) by (exists m0; auto). pose proof (cod4 F two A HA k m0 Nm E1 E2) as HA4.
  cbn [chain4]. rewrite (odd_iter A B M (2 * n) HA HB HM). 2:{ rewrite !iter_S, Ek, E1, E2. reflexivity. }
  rewrite Ek. destruct (lift F (A4 k) (phi4x k (xof M))) as (B1 & N & HB1 & HN & EN).
  rewrite (xhom_mul A B (A4 k) B1 (phi4x k) M N HA HB HA4 HB1 (xhom4 F two A k HA Hk) HM HN EN). rewrite <- EN. apply IH; auto. rewrite EN.
  destruct n as [|n]; [auto|right]. apply (dm next4 two A n _ k HA Ho Ek).
Qed.
Lemma chain2_odd n A B M s : (2 <= n)%nat -> A * A <> 4 -> B <> 0 -> on A B M -> G2 n A (xof M) -> chain2 n A (xof (pmul A B m M)) s = chain2 n A (xof M) s.
Proof.
  intros Hn HA HB HM HG. pose proof (half n) as Hh. pose proof HG as (_ & m0 & Hm & Em). unfold chain2. destruct (Nat.odd n) eqn:Eo.
  - rewrite (odd_iter A B M (n - 1) HA HB HM). 2:{ rewrite !iter_S, Em. destruct Hm as [_ ->]. reflexivity. }
    rewrite Em. pose proof (cod2 F two A HA m0 Hm) as HA2.
    destruct (lift F (A2 m0) (phi2x m0 (xof M))) as (B1 & N & HB1 & HN & EN).
    rewrite (xhom_mul A B (A2 m0) B1 (phi2x m0) M N HA HB HA2 HB1 (xhom2 F two A m0 HA Hm) HM HN EN). rewrite <- EN. apply chain4_odd; auto. rewrite EN.
    destruct (n / 2)%nat as [|h]; [auto|right]. apply (dm next2 two A (S h) _ m0 HA); [lia| |exact Hm]. replace (2 * S h)%nat with (n - 1)%nat by lia. exact Em.
  - apply chain4_odd; auto. right. now apply G2_ord4.
Qed.
Section Cls.
Variable SS : F -> Prop.
Hypothesis HSS : isog_class SS.
Variable other : F -> F * F * F.
Hypothesis Hot : isos SS other.
Hypothesis Hor : forall A, SS A -> snd (fst (other A)) <> 0.
Variable n : nat.
Hypothesis Hn : (2 <= n)%nat.
Notation ns := (ss_ns F SS HSS).
Lemma odd_last A B M : SS A -> B <> 0 -> on A B M -> xord2 A n (xof M) -> Nat.iter (n - 1) (dblx A) (xof (pmul A B m M)) = Nat.iter (n - 1) (dblx A) (xof M).
Proof.
  intros HA HB HM [Ho _]. apply odd_iter; auto; [now apply ns|]. replace (S (S (n - 1))) with (S n) by lia. rewrite iter_S, Ho. reflexivity.
Qed.
Lemma odd_ord A B M : SS A -> B <> 0 -> on A B M -> xord2 A n (xof M) -> xord2 A n (xof (pmul A B m M)).
Proof.
  intros HA HB HM Ho. assert (H1 : (1 <= n)%nat) by lia. apply (dm xord2_two A n _ H1). rewrite (odd_last A B M HA HB HM Ho). now apply (dm xord2_two A n _ H1).
Qed.
Lemma quot2_odd A B M s : SS A -> B <> 0 -> on A B M -> xord2 A n (xof M) -> quot2 other n A (xof (pmul A B m M)) s = quot2 other n A (xof M) s.
Proof.
  intros HA HB HM Ho. destruct (quot2_model F two SS HSS other Hot Hor n Hn A (xof M) HA Ho) as (A' & r & u & HI & HA' & HG & E). rewrite E.
  pose proof HI as [Nu _]. set (B' := B / (u * u * u)).
  assert (HB' : B' <> 0). { intros X. apply HB. transitivity (B' * (u * u * u)); [unfold B'; field; auto|rewrite X; ring]. }
  pose proof (iso_on F A A' B r u HI M HM) as HM'. fold B' in HM'.
  rewrite (isox_pt F r u M) in HG |- *.
  rewrite <- (chain2_odd n A' B' _ (isox r u s) Hn (ns _ HA') HB' HM' HG).
  pose proof (quot2_any F two SS HSS other Hot Hor n Hn A A' r u (xof (pmul A B m M)) s HA (odd_ord A B M HA HB HM Ho) HA' HI) as X.
  rewrite (isox_pt F r u (pmul A B m M)), (iso_pmul F two A A' B r u HI m M HB) in X. fold B' in X. apply X.
  destruct HG as (H1 & m0 & Hm & Em). split; [auto|]. exists m0. split; [auto|]. rewrite (odd_iter A' B' _ (n - 1) (ns _ HA') HB' HM'); [exact Em|].
  rewrite !iter_S, Em. destruct Hm as [_ ->]. reflexivity.
Qed.
End Cls.
End Odd.
End OD.
