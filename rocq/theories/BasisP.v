(** Points of order a power of 2 or 3 on the starting curve, what the three-point ladder makes of them, and their images. *)
From Coq Require Import Field Znumtheory Zpow_facts.
From Verif Require Import Base BaseP Out Params Ops Ec Models Sidh Fld FieldOps CurveSpec IsogSpec ModelSpec XSpec WalkSpec FldCurve GroupP MultP OrderP LadderP IsoP FldIsog FldModels
  XLine XIso Strategy XChain CheckP XIsog WalkP SquareP KumP GridP Lad3P.
Set Bullet Behavior "Strict Subproofs".

(** P and Q generate a group of type (l^e, l^e): Q has order l^e and no multiple of Q meets the socle of P. *)
Definition basis {F : fld} (A B : F) (l e : nat) (P Q : point F) : Prop :=
  on A B P /\ on A B Q /\ pmul A B (l ^ e) P = Inf /\ pmul A B (l ^ e) Q = Inf /\ pmul A B (l ^ (e - 1)) Q <> Inf /\
  forall n, pmul A B (l ^ (e - 1)) P <> pmul A B n (pmul A B (l ^ (e - 1)) Q).

Section BP.
Variable F : fld.
Hypothesis two : (kadd k1 k1 : F) <> k0.
Local Open Scope fld_scope.
Definition kth15 := kth F.
Add Field KF15 : kth15.
Ltac toF_eq := match goal with |- ?a = ?b => change (@eq (K F) a b) end.
Variables A B : F.
Hypothesis HA : A * A <> 4.
Hypothesis HB : B <> 0.
Local Notation on := (on A B). Local Notation padd := (padd A B). Local Notation pmul := (pmul A B).
Notation pmul_on := (pmul_on F two A B HA HB). Notation pmul_mul := (pmul_mul F two A B HA HB).
Notation pmul_add := (pmul_add F two A B HA HB). Notation pmul_padd := (pmul_padd F two A B HA HB).
Notation padd_on := (padd_on F two A B HA HB). Notation padd_comm := (padd_comm F two A B HA HB).
Notation padd_assoc := (padd_assoc F two A B HA HB). Notation pmul_swap := (pmul_swap F two A B HA HB).
Notation neg_on := (neg_on F A B). Notation pmul_neg := (pmul_neg F two A B HA HB).
Notation dblx_pt := (dblx_pt F two A B).
Implicit Types M N P Q : point F.
Local Notation dn T := (T F (k0 : F) (fun x : F => x) (fun _ _ : F => false) (fun _ : F => @nil Z) (fun _ : list Z => (k0 : F)) (fun _ : tape => @NoTape (F * tape))).

Lemma dbl_pt n M : on M -> Nat.iter n (dblx A) (xof M) = xof (pmul (2 ^ n) M).
Proof.
  intros H. induction n as [|n IH].
  - cbn. now destruct M.
  - rewrite iter_S, IH, dblx_pt by auto using pmul_on. rewrite <- pmul_add by auto. do 2 f_equal. cbn. lia.
Qed.
Lemma tpl_pt n M : on M -> Nat.iter n (tplx A) (xof M) = xof (pmul (3 ^ n) M).
Proof.
  intros H. induction n as [|n IH].
  - cbn. now destruct M.
  - rewrite iter_S, IH, (dn tplx_pt two A B) by auto using pmul_on. rewrite <- !pmul_add by auto. do 2 f_equal. cbn. lia.
Qed.
Lemma xinf M : xof M = XInf -> M = Inf. Proof. destruct M; [auto|discriminate]. Qed.
Lemma cop23 i j M : on M -> pmul (2 ^ i) M = Inf -> pmul (3 ^ j) M = Inf -> M = Inf.
Proof.
  intros H H2 H3. apply (coprime_kill F two A B HA HB (2 ^ i) (3 ^ j)); auto. apply nat_coprime. rewrite !Nat2Z.inj_pow.
  apply rel_prime_Zpower; try lia. apply Zgcd_1_rel_prime; reflexivity.
Qed.
Lemma zero_pt M : on M -> xof M = XF 0 -> M = Aff 0 0.
Proof.
  destruct M as [|x y]; [discriminate|]. intros Ho E. assert (x = 0) as -> by (cbn in E; congruence). f_equal.
  cbn [CurveSpec.on] in Ho. destruct (kdec y 0) as [|N]; auto. exfalso.
  assert (Y : B * (y * y) = 0) by (rewrite Ho; unfold fx; ring). revert Y. repeat apply (mul_nz F); auto.
Qed.
Lemma on00 : on (Aff 0 0). Proof. cbn. unfold fx. ring. Qed.
Lemma dbl00 : pmul 2 (Aff 0 0) = Inf. Proof. rewrite (MultP.pmul_2 F A B). apply (padd_opp F A B). ring. Qed.

(** ** Sums P + n Q *)
Section Lad.
Variables P Q : point F.
Hypothesis HP : on P.
Hypothesis HQ : on Q.
Variable b : nat -> bool.
Fixpoint acc (i : nat) : point F := match i with O => P | S i => if b i then padd (acc i) (pmul (2 ^ i) Q) else acc i end.
Definition dif (i : nat) : point F := padd (acc i) (neg (pmul (2 ^ i) Q)).
Lemma acc_on i : on (acc i). Proof. induction i as [|i IH]; cbn; auto. destruct (b i); auto using padd_on, pmul_on. Qed.
Lemma dif_on i : on (dif i). Proof. unfold dif. auto using padd_on, acc_on, neg_on, pmul_on. Qed.
Lemma pow_S i : pmul (2 ^ S i) Q = padd (pmul (2 ^ i) Q) (pmul (2 ^ i) Q).
Proof. rewrite <- pmul_add by auto. f_equal. cbn. lia. Qed.
Lemma lad3_pt (N : nat) : (forall i, (i < N)%nat -> nz F (xof (acc i)) /\ nz F (xof (dif i))) ->
  lad3 F A b N (fun i => xof (pmul (2 ^ i) Q)) (fun i => xof (acc i)) (fun i => xof (dif i)).
Proof.
  intros HN i Hi. destruct (HN i Hi) as [N1 N2]. split; [rewrite pow_S, dblx_pt; auto using pmul_on|]. split; [auto|]. split; [auto|].
  assert (HD : on (pmul (2 ^ i) Q)) by auto using pmul_on. pose proof (acc_on i) as Ha. pose proof (dif_on i) as Hd.
  set (D := pmul (2 ^ i) Q) in *.
  destruct (b i) eqn:Eb.
  - assert (Ea : acc (S i) = padd (acc i) D) by (cbn; rewrite Eb; reflexivity). split.
    + unfold dif. rewrite Ea, pow_S. fold D. rewrite (neg_padd F two A B HA HB) by auto. rewrite padd_assoc by auto using padd_on, neg_on.
      f_equal. f_equal. rewrite <- padd_assoc by auto using neg_on. rewrite (padd_neg F A B). reflexivity.
    + rewrite Ea. apply XT_comm. unfold dif. fold D. apply (XT_pt F two A B HA HB); auto.
  - assert (Ea : acc (S i) = acc i) by (cbn; rewrite Eb; reflexivity). split; [now rewrite Ea|].
    apply XT_comm, XT_swap.
    assert (E1 : padd (dif i) D = acc i).
    { unfold dif. fold D. rewrite padd_assoc by auto using neg_on. rewrite (padd_neg' F A B). apply (padd_inf_r' F A B). }
    assert (E2 : padd (dif i) (neg D) = dif (S i)).
    { unfold dif. fold D. rewrite Ea, pow_S. fold D. rewrite (neg_padd F two A B HA HB) by auto. apply padd_assoc; auto using neg_on. }
    rewrite <- E1, <- E2. apply (XT_pt F two A B HA HB); auto.
Qed.
Variables (l e : nat).
Hypothesis Hl : (2 <= l)%nat.
Hypothesis He : (1 <= e)%nat.
Hypothesis KP : pmul (l ^ e) P = Inf.
Hypothesis KQ : pmul (l ^ e) Q = Inf.
Hypothesis Ind : forall n, pmul (l ^ (e - 1)) P <> pmul n (pmul (l ^ (e - 1)) Q).
Definition good M : Prop := on M /\ pmul (l ^ e) M = Inf /\ forall n, pmul (l ^ (e - 1)) M <> pmul n (pmul (l ^ (e - 1)) Q).
Lemma pow_e : (l ^ e = l * l ^ (e - 1))%nat. Proof. replace e with (S (e - 1)) at 1 by lia. reflexivity. Qed.
Lemma good_add M k : good M -> good (padd M (pmul k Q)).
Proof.
  intros (Ho & Hk & Hi). split; [auto using padd_on, pmul_on|]. split.
  - rewrite pmul_padd, Hk, pmul_swap, KQ, (pmul_inf F A B) by auto using pmul_on. reflexivity.
  - intros n E. rewrite pmul_padd in E by auto using pmul_on. rewrite (pmul_swap _ k) in E by auto. set (N := (l ^ (e - 1))%nat) in *.
    assert (HN : on (pmul N Q)) by auto using pmul_on.
    assert (K0 : pmul (l * k) (pmul N Q) = Inf).
    { replace (l * k)%nat with (k * l)%nat by lia. rewrite pmul_mul by auto. rewrite <- (pmul_mul l N Q) by auto. unfold N. rewrite <- pow_e, KQ. apply (pmul_inf F A B). }
    apply (Hi (n + (l * k - k))%nat).
    transitivity (padd (padd (pmul N M) (pmul k (pmul N Q))) (pmul (l * k - k) (pmul N Q))).
    + rewrite padd_assoc by auto using pmul_on. rewrite <- pmul_add by auto. replace (k + (l * k - k))%nat with (l * k)%nat by nia. rewrite K0.
      symmetry. apply (padd_inf_r' F A B).
    + rewrite E. symmetry. now apply pmul_add.
Qed.
Lemma good_sub M k : good M -> good (padd M (neg (pmul k Q))).
Proof.
  intros (Ho & Hk & Hi). assert (HN : on (neg (pmul k Q))) by auto using neg_on, pmul_on. split; [auto using padd_on|]. split.
  - rewrite pmul_padd, Hk, pmul_neg, pmul_swap, KQ, (pmul_inf F A B) by auto using pmul_on. reflexivity.
  - intros n E. rewrite pmul_padd, pmul_neg in E by auto using pmul_on. rewrite (pmul_swap _ k) in E by auto. set (N := (l ^ (e - 1))%nat) in *.
    assert (HN' : on (pmul N Q)) by auto using pmul_on. apply (Hi (n + k)%nat). rewrite pmul_add by auto. rewrite <- E.
    rewrite padd_assoc by auto using neg_on, pmul_on. rewrite (padd_neg' F A B). symmetry. apply (padd_inf_r' F A B).
Qed.
Lemma good_P : good P. Proof. split; auto. Qed.
Lemma good_acc i : good (acc i). Proof. induction i as [|i IH]; [apply good_P|]. cbn. destruct (b i); auto using good_add. Qed.
Lemma good_dif i : good (dif i). Proof. unfold dif. apply good_sub, good_acc. Qed.
Lemma good_inf M : good M -> M <> Inf.
Proof. intros (_ & _ & Hi) ->. apply (Hi 0%nat). rewrite (pmul_inf F A B). reflexivity. Qed.
End Lad.

(** ** Images *)
Lemma two_zero i : pmul (2 ^ i) (Aff 0 0) = Inf \/ i = 0%nat.
Proof. destruct i as [|i]; [auto|left]. cbn [Nat.pow]. rewrite Nat.mul_comm, pmul_mul by apply on00. rewrite dbl00. apply (pmul_inf F A B). Qed.
Lemma nz3 e M : on M -> pmul (3 ^ e) M = Inf -> M <> Inf -> nz F (xof M).
Proof.
  intros Ho Hk Hn. split; intros E; [apply Hn, xinf; auto|]. apply zero_pt in E; auto. subst M. apply Hn, (cop23 1 e); auto. apply dbl00.
Qed.
Lemma tpl0 A1 i : Nat.iter i (tplx A1) (XF 0) = XF 0 :> xl F.
Proof.
  induction i as [|i IH]; [reflexivity|]. rewrite iter_S, IH. cbn. destruct (kdec (div3 A1 0) 0) as [E|N].
  - exfalso. apply (one_nz F). transitivity (- div3 A1 0); [unfold div3; ring|]. rewrite E. ring.
  - f_equal. toF_eq. field. auto.
Qed.
Lemma nz3_img A1 f n e M : xhom F A A1 f -> (forall r, f r = XInf -> Nat.iter n (dblx A) r = XInf) ->
  on M -> pmul (3 ^ e) M = Inf -> M <> Inf -> nz F (f (xof M)).
Proof.
  intros Hh Hk Ho H3 Hn. split; intros E.
  - apply Hk in E. rewrite dbl_pt in E by auto. apply Hn, (cop23 n e); auto. now apply xinf.
  - assert (X : f (Nat.iter e (tplx A) (xof M)) = XF 0) by (rewrite (xhom_tpl F A A1 f e _ Hh), E; apply tpl0).
    rewrite tpl_pt, H3 in X by auto. cbn [xof] in X. rewrite (proj1 Hh) in X. discriminate.
Qed.
Lemma two_tor M : on M -> pmul 2 M = Inf -> M = Inf \/ exists x, M = Aff x 0 /\ (x = 0 \/ ker2 A x).
Proof.
  intros Ho H2. destruct M as [|x y]; [auto|right]. pose proof (dbl_pt 1 (Aff x y) Ho) as E. change (2 ^ 1)%nat with 2%nat in E. rewrite H2 in E.
  cbn [Nat.iter nat_rect xof] in E. assert (y = 0) as ->.
  { apply (two_tors F) in E. cbn [CurveSpec.on] in Ho. rewrite E in Ho. destruct (kdec y 0) as [|N]; auto. exfalso. revert Ho. repeat apply (mul_nz F); auto. }
  exists x. split; [auto|]. destruct (kdec x 0) as [|N]; [auto|right]. split; auto.
Qed.
Lemma nz2_img Ap g h e M : xhom F A Ap g -> (forall r, g r = XInf -> Nat.iter h (tplx A) r = XInf) ->
  (forall m, ker2 A m -> exists m', g (XF m) = XF m' /\ ker2 Ap m') ->
  on M -> pmul (2 ^ e) M = Inf -> nz F (xof M) -> nz F (g (xof M)).
Proof.
  intros Hh Hk Hm Ho H2 [Ni N0]. split; intros E.
  - apply Hk in E. rewrite tpl_pt in E by auto. apply Ni. rewrite (cop23 e h M); auto. now apply xinf.
  - assert (X : g (dblx A (xof M)) = XInf).
    { rewrite (proj1 (proj2 Hh)), E. cbn. destruct (kdec (fx Ap 0) 0) as [|N]; [reflexivity|]. exfalso. apply N. unfold fx. ring. }
    pose proof (dbl_pt 1 M Ho) as D. cbn [Nat.iter nat_rect] in D. change (2 ^ 1)%nat with 2%nat in D. rewrite D in X.
    apply Hk in X. rewrite tpl_pt in X by auto using pmul_on. apply xinf in X.
    assert (Y : pmul 2 M = Inf).
    { apply (cop23 e h); auto using pmul_on. rewrite pmul_swap, H2 by auto. apply (pmul_inf F A B). }
    destruct (two_tor M Ho Y) as [->|(x & -> & [->|Hx])]; [now apply Ni|now apply N0|].
    destruct (Hm x Hx) as (x' & E' & Nx' & _). cbn [xof] in E. rewrite E' in E. congruence.
Qed.
End BP.
