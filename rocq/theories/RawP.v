(** Walks of several isogenies on the curves as computed, without the change to canonical models, and their translation to
    walks on canonical models. *)
From Coq Require Import Field.
From Verif Require Import Base BaseP Out Params Ops Ec Models Fld FieldOps CurveSpec IsogSpec ModelSpec XSpec WalkSpec FldCurve GroupP MultP IsoP FldIsog FldModels
  XLine XIso Strategy XChain CheckP XIsog WalkP SquareP KumP GridP BasisP IsoStepP IsoChainP OddP.
Set Bullet Behavior "Strict Subproofs".

Section RW.
Variable F : fld.
Hypothesis two : (kadd k1 k1 : F) <> k0.
Hypothesis three : (kadd k1 (kadd k1 k1) : F) <> k0.
Local Open Scope fld_scope.
Implicit Types (A B u r : F) (p q s d : xl F) (f g : xl F -> xl F) (l : list (F * xl F)).
Local Notation dm T := (T F (k0 : F) (fun x : F => x) (fun _ _ : F => false) (fun _ : F => @nil Z) (fun _ : list Z => (k0 : F)) (fun _ : tape => @NoTape (F * tape))).
Local Notation dn T := (T F (fun x : F => x) (fun _ _ : F => false) (fun _ : F => @nil Z) (fun _ : list Z => (k0 : F)) (fun _ : tape => @NoTape (F * tape))).
Notation ord3 := (ord3 F). Notation C3 := (C3 F). Notation D3 := (D3 F).
Variable SS : F -> Prop.
Hypothesis HSS : isog_class SS.
Notation ns := (ss_ns F SS HSS).

(** ** Powers of 3 *)
Variable h : nat.
Hypothesis Hh : (1 <= h)%nat.
Lemma D3_tor j : forall A p Ap g d, A * A <> 4 -> ord3 (S j) A p -> C3 (S j) A p Ap g -> D3 (S j) A p d -> tplx Ap d = XInf /\ d <> XInf.
Proof.
  induction j as [|j IH]; intros A p Ap g d HA Ho Hc Hd.
  - destruct (dn ord3_S _ _ _ Ho) as (k & Ek & Hk). cbn in Ek. subst p. apply (D3_1 F) in Hd as ->.
    pose proof (Hc XInf) as X. cbn [chain3 Nat.iter nat_rect] in X. assert (Ap = A3 A k) by congruence. subst Ap.
    split; [exact (ker3_dual F two three A k HA Hk)|discriminate].
  - destruct (dn ord3_S _ _ _ Ho) as (k & Ek & Hk). apply (D3_S F two j A p k d HA Ek Hk) in Hd.
    assert (Hc' : forall y : xl F, exists y', chain3 (S j) (A3 A k) (phi3x k p) (phi3x k y) = Some (Ap, y')).
    { intros y. pose proof (Hc y) as X. change (chain3 (S (S j)) A p y) with (match Nat.iter (S j) (tplx A) p with XInf => None | XF k => chain3 (S j) (A3 A k) (phi3x k p) (phi3x k y) end) in X. rewrite Ek in X. eauto. }
    assert (HO : ord3 (S j) (A3 A k) (phi3x k p)) by (apply (dm next3 two A j _ k HA); auto; lia).
    assert (HX : exists g', C3 (S j) (A3 A k) (phi3x k p) Ap g').
    { destruct (Hc' XInf) as (r' & E). exists (fun y => match chain3 (S j) (A3 A k) (phi3x k p) y with Some (_, z) => z | None => XInf end). intros y.
      destruct (chain3_cod F (S j) _ _ _ y _ _ E) as (s' & ->). reflexivity. }
    destruct HX as (g' & HX). exact (IH _ _ _ g' d (dm cod3 two A HA k Hk) HO HX Hd).
Qed.
Inductive raw3 : option (xl F) -> F -> list (F * xl F) -> F -> Prop :=
| raw3_nil o A : raw3 o A [] A
| raw3_cons o A p Ap g d' l A'' : ord3 h A p -> (forall x, o = Some x -> Nat.iter (h - 1) (tplx A) p <> x) ->
    C3 h A p Ap g -> D3 h A p d' -> raw3 (Some d') Ap l A'' -> raw3 o A ((A, p) :: l) A''.
Lemma C3_ss A p Ap g : SS A -> ord3 h A p -> C3 h A p Ap g -> SS Ap.
Proof. intros HA Ho Hc. exact (chain3_ss F two SS HSS h A p XInf Ap _ HA (or_intror Ho) (Hc XInf)). Qed.
Lemma raw3_ss o A l A'' : raw3 o A l A'' -> SS A -> SS A'' /\ Forall (fun x => SS (fst x)) l.
Proof.
  induction 1 as [o A|o A p Ap g d' l A'' Ho Nd Hc Hd H IH]; intros HA; [auto|].
  destruct (IH (C3_ss A p Ap g HA Ho Hc)) as [H1 H2]. split; [auto|]. constructor; auto.
Qed.
Lemma ord3_xord A p : ord3 h A p <-> xord3 A h p.
Proof.
  rewrite (dm xord3_two A h p Hh). split.
  - intros (k & E1 & E2). rewrite E1. split; [discriminate|auto].
  - intros [H1 H2]. destruct (Nat.iter (h - 1) (tplx A) p) as [|k] eqn:E; [contradiction|]. exists k. auto.
Qed.

(** ** Canonical models *)
Variable canon : F -> F * F * F.
Hypothesis Hcan : isos SS canon.
Hypothesis Hsame : forall A B r u, SS A -> iso_to A B r u -> fst (fst (canon B)) = fst (fst (canon A)).
Definition isoc A : xl F -> xl F := let '(_, r, u) := canon A in isox r u.
Notation cB A := (fst (fst (canon A))).
Notation special := (special F).
Lemma conv3 o A l A'' : raw3 o A l A'' -> SS A -> l <> [] -> Forall (fun x => ~ special (fst x)) (tl l) ->
  exists B'' r u, walk3 canon h (cB A) (option_map (isoc A) o) (map (fun x => isoc (fst x) (snd x)) l) B'' /\ iso_to A'' B'' r u.
Proof.
  induction 1 as [o A|o A p Ap g d' l A'' Ho Nd Hc Hd H IH]; intros HA Nl Hs; [contradiction|]. clear Nl.
  pose proof (Hcan A HA) as HI. unfold isoc. cbn [map fst snd]. destruct (canon A) as [[B r] u] eqn:EC. cbn [fst].
  assert (HB : SS B) by (apply (ss_iso HSS A B r u); auto). pose proof (ns _ HA) as NA. pose proof (ns _ HB) as NB.
  destruct (C3_iso F two three h A B r u p Ap g NA NB HI (or_intror Ho) Hc) as (Bp & r' & u' & gB & HcB & HIp & Hg & HD).
  pose proof (C3_ss A p Ap g HA Ho Hc) as HAp. assert (HBp : SS Bp) by (apply (ss_iso HSS Ap Bp r' u'); auto).
  assert (HoB : ord3 h B (isox r u p)).
  { destruct Ho as (k & E1 & E2). exists ((k - r) / u). rewrite <- (isox_tpl F two (h - 1) A B r u p HI NA NB), E1. split; [reflexivity|].
    exact (ker3_iso F two A B r u k HI NA NB E2). }
  assert (St : step3 h B (option_map (isox r u) o) (isox r u p) Bp (isox r' u' d')).
  { split; [now apply ord3_xord|]. split; [|split].
    - intros x Ex E. destruct o as [d|]; [|discriminate]. injection Ex as <-. rewrite <- (isox_tpl F two (h - 1) A B r u p HI NA NB) in E.
      apply isox_inj in E; [|apply HI]. exact (Nd d eq_refl E).
    - pose proof (HcB XInf) as X. rewrite X. f_equal. f_equal. exact (chain3_inf F h B _ _ _ X).
    - destruct (HD d' Hh Hd) as (A1 & k & E1 & E2). exists A1, k. split; [exact E1|exact E2]. }
  destruct l as [|[A1 q] l].
  - inversion H; subst. exists Bp, r', u'. split; [|auto]. cbn [map]. econstructor; eauto.
  - cbn [tl] in Hs. assert (A1 = Ap) as -> by (inversion H; auto). inversion Hs as [|x y Hsp Hs']; subst x y. cbn [fst] in Hsp.
    destruct (IH HAp ltac:(discriminate) Hs') as (B'' & r'' & u'' & HW & HI'').
    exists B'', r'', u''. split; [|auto]. cbn [map option_map fst snd] in HW |- *.
    pose proof (Hcan Ap HAp) as HIa. pose proof (Hcan Bp HBp) as HIb. pose proof (Hsame Ap Bp r' u' HAp HIp) as ES.
    destruct (canon Bp) as [[Cb rb] ub] eqn:ECb. unfold isoc in HW at 1 2. destruct (canon Ap) as [[Ca ra] ua] eqn:ECa. cbn [fst] in ES, HW. subst Cb.
    pose proof (iso_compose F _ _ _ _ _ _ _ HIp HIb) as HIc.
    destruct (iso_unique F two Ap Ca ra ua _ _ (ns _ HAp) Hsp HIa HIc) as [Er Eu].
    assert (EX : forall y, isox rb ub (isox r' u' y) = isox ra ua y).
    { intros y. rewrite (isox_comp F r' u' rb ub y) by (try apply HIp; apply HIb). now rewrite Er, Eu. }
    econstructor; [exact St|exact ECb|]. rewrite EX. exact HW.
Qed.

(** ** Powers of 2 *)
Variable other : F -> F * F * F.
Hypothesis Hot : isos SS other.
Hypothesis Hor : forall A, SS A -> snd (fst (other A)) <> 0.
Variable n : nat.
Hypothesis Hn : (2 <= n)%nat.
Notation Q2 := (Q2 F other n).
Inductive raw2 : bool -> F -> list (F * xl F) -> F -> (xl F -> xl F) -> Prop :=
| raw2_nil b A : raw2 b A [] A (fun y => y)
| raw2_cons b A q A1 f l A'' g : xord2 A n q -> (b = true -> Nat.iter (n - 1) (dblx A) q <> XF 0) ->
    Q2 A q A1 f -> raw2 true A1 l A'' g -> raw2 b A ((A, q) :: l) A'' (fun y => g (f y)).
Lemma Q2_ss A q A1 f : SS A -> xord2 A n q -> Q2 A q A1 f -> SS A1.
Proof. intros HA Ho HQ. exact (quot2_ss F two SS HSS other Hot Hor n Hn A q XInf A1 _ HA Ho (HQ XInf)). Qed.
Lemma raw2_facts b A l A'' f : raw2 b A l A'' f -> SS A -> SS A'' /\ (forall x y : xl F, tplx A x = XInf -> tplx A y = XInf -> f x = f y -> x = y) /\
  (forall y, f (tplx A y) = tplx A'' (f y)) /\ f XInf = XInf.
Proof.
  induction 1 as [b A|b A q A1 f l A'' g Ho Nb HQ H IH]; intros HA; [auto|].
  pose proof (Q2_ss A q A1 f HA Ho HQ) as HA1. destruct (IH HA1) as (H1 & H2 & H3 & H4).
  pose proof (Q2_tpl F two SS HSS other Hot Hor n Hn A q A1 f HA Ho HQ) as HT.
  assert (HI : f XInf = XInf) by exact (quot2_inf F other n A q _ _ (HQ XInf)).
  split; [auto|]. split; [|split].
  - intros x y Ex Ey E. apply H2 in E; [|now rewrite <- HT, Ex|now rewrite <- HT, Ey]. exact (Q2_inj3 F two SS HSS other Hot Hor n Hn A q A1 f x y HA Ho HQ Ex Ey E).
  - intros y. now rewrite HT, H3.
  - now rewrite HI.
Qed.
Lemma raw2_iter b A l A'' f : raw2 b A l A'' f -> SS A -> forall j y, f (Nat.iter j (tplx A) y) = Nat.iter j (tplx A'') (f y).
Proof. intros H HA j y. destruct (raw2_facts b A l A'' f H HA) as (_ & _ & HT & _). induction j as [|j IH]; [reflexivity|]. now rewrite !iter_S, HT, IH. Qed.
Lemma raw2_SS b A l A'' f : raw2 b A l A'' f -> SS A -> Forall (fun x => SS (fst x)) l.
Proof. induction 1 as [b A|b A q A1 f l A'' g Ho Nb HQ H IH]; intros HA; constructor; [auto|]. apply IH. exact (Q2_ss A q A1 f HA Ho HQ). Qed.
(** What the prover packs for (A, q): the image of an odd multiple on the canonical model. *)
Definition packed2 (x : F * xl F) (y : xl F) : Prop :=
  exists B M j, B <> 0 /\ on (fst x) B M /\ xof M = snd x /\ y = isoc (fst x) (xof (pmul (fst x) B (2 * j + 1) M)).
Lemma conv2 b A l A'' f : raw2 b A l A'' f -> SS A -> l <> [] -> forall ys, Forall2 packed2 l ys ->
  walk2 canon other n (cB A) (if b then Some (isoc A (XF 0)) else None) ys A''.
Proof.
  induction 1 as [b A|b A q A1 f l A'' g Ho Nb HQ H IH]; intros HA Nl ys HP; [contradiction|]. clear Nl.
  inversion HP as [|x y l0 ys' (BB & M & j & NB & HM & EM & ->) HP' E1 E2]; subst x l0 ys. cbn [fst snd] in *. subst q.
  pose proof (Hcan A HA) as HI. unfold isoc. destruct (canon A) as [[B r] u] eqn:EC. cbn [fst].
  assert (HB : SS B) by (apply (ss_iso HSS A B r u); auto). pose proof (ns _ HA) as NsA. pose proof (ns _ HB) as NsB.
  pose proof (odd_ord F two j SS HSS other Hor n Hn A BB M HA NB HM Ho) as Ho'. set (x := xof (pmul A BB (2 * j + 1) M)) in *.
  pose proof (Q2_ss A _ A1 f HA Ho HQ) as HA1.
  assert (St : step2 other n B (if b then Some (isox r u (XF 0)) else None) (isox r u x) A1).
  { split; [now apply (isox_ord F two A B r u HI NsA NsB)|]. split.
    - intros z Ez E. destruct b; [|discriminate]. assert (z = isox r u (XF 0)) as -> by congruence. rewrite (iter_iso F two (n - 1) A B r u x HI NsA NsB) in E.
      apply isox_inj in E; [|apply HI]. unfold x in E. rewrite (odd_last F two j SS HSS other Hor n Hn A BB M HA NB HM Ho) in E. exact (Nb eq_refl E).
    - change (@XInf F) with (isox r u (@XInf F)) at 1. rewrite (quot2_iso F two SS HSS other Hot Hor n Hn A B r u x XInf HA Ho' HI). unfold x.
      rewrite (quot2_odd F two j SS HSS other Hot Hor n Hn A BB M XInf HA NB HM Ho). pose proof (HQ XInf) as X. rewrite X. f_equal. f_equal. exact (quot2_inf F other n A _ _ _ X). }
  destruct l as [|[A2 q] l].
  - inversion HP'; subst. inversion H; subst. now constructor.
  - assert (A2 = A1) as -> by (inversion H; auto). inversion HP' as [|x0 y0 l0 ys0 HP1 HP2 E1 E2]; subst x0 l0 ys'.
    pose proof (IH HA1 ltac:(discriminate) _ HP') as HW. unfold isoc in HW. destruct (canon A1) as [[B1 r1] u1] eqn:EC1. cbn [fst] in HW.
    econstructor; [exact St|exact EC1|exact HW].
Qed.
End RW.
