(** The line of x-coordinates: the formulas of the code compute dblx, tplx, phi2x, phi3x, phi4x, and these commute. *)
From Coq Require Import Field.
From Verif Require Import Base Out Ops Ec Fld FieldOps CurveSpec IsogSpec XSpec FldCurve GroupP MultP FldIsog.
Set Bullet Behavior "Strict Subproofs".

Section XL.
Variable F : fld.
Variables (unit : F) (sqrt : F -> F) (lt : F -> F -> bool) (enc : F -> list Z) (dec : list Z -> F) (rnd : tape -> out (F * tape)).
Local Notation O := (fld_ops F unit sqrt lt enc dec rnd).
Hypothesis two : (kadd k1 k1 : F) <> k0.
Local Open Scope fld_scope.
Definition kth6 := kth F.
Add Field KF6 : kth6.
Ltac fsd := repeat match goal with |- _ /\ _ => split end;
  first [assumption | exact two | exact (four_nz F two) | apply (neg_nz F); assumption].
Definition repp (Q : pt O) (q : xl F) : Prop := rep (pX Q) (pZ Q) q.

Lemma rep_uniq (X Z : F) q q' : rep X Z q -> rep X Z q' -> q = q'.
Proof.
  destruct q as [|x], q' as [|x']; cbn [rep]; auto; intros [H1 H2] [H3 H4].
  - contradiction.
  - contradiction.
  - f_equal. apply (mul_cancel F) with Z; auto. congruence.
Qed.
Lemma rep_prop (l r X1 Z1 X2 Z2 : F) q q' : l <> 0 -> r <> 0 -> l * X1 = r * X2 -> l * Z1 = r * Z2 -> rep X1 Z1 q -> rep X2 Z2 q' -> q = q'.
Proof.
  intros Hl Hr EX EZ H1 H2. apply (rep_uniq X2 Z2); auto.
  destruct q as [|x]; cbn [rep] in *; destruct H1 as [H1 H1'].
  - split.
    + intros ->. apply (mul_nz F l X1); auto. rewrite EX. ring.
    + rewrite H1' in EZ. assert (E : r * Z2 = 0) by (rewrite <- EZ; ring). apply (mul_z F) in E as [|]; [contradiction|auto].
  - split.
    + intros ->. apply (mul_nz F l Z1); auto. rewrite EZ. ring.
    + apply (mul_cancel F) with r; auto. transitivity (r * X2); [ring|]. rewrite <- EX, H1'.
      transitivity (x * (l * Z1)); [ring|]. rewrite EZ. ring.
Qed.
Lemma rep_xz (X Z : F) M : xz X Z M <-> rep X Z (xof M).
Proof. destruct M; reflexivity. Qed.
Lemma rep_ex (q : xl F) : exists X Z : F, rep X Z q.
Proof.
  destruct q as [|x].
  - exists 1, 0. split; [apply (one_nz F)|reflexivity].
  - exists x, 1. split; [apply (one_nz F)|ring].
Qed.
Lemma rep_of (X Z : F) : ~ (X = 0 /\ Z = 0) -> exists q, rep X Z q.
Proof.
  intros N. destruct (kdec Z 0) as [->|NZ].
  - exists XInf. split; auto.
  - exists (XF (X / Z)). split; auto. field. auto.
Qed.
(** Every x-coordinate belongs to a point of some twist. *)
Lemma lift (A : F) (q : xl F) : exists B M, B <> 0 /\ on A B M /\ xof M = q.
Proof.
  destruct q as [|x].
  - exists 1, Inf. repeat split. apply (one_nz F).
  - destruct (kdec (fx A x) 0) as [E|N].
    + exists 1, (Aff x 0). repeat split; [apply (one_nz F)|]. cbn. rewrite E. ring.
    + exists (fx A x), (Aff x 1). repeat split; auto. cbn. ring.
Qed.
Lemma dblx_pt (A B : F) M : A * A <> 4 -> B <> 0 -> on A B M -> dblx A (xof M) = xof (padd A B M M).
Proof.
  intros HA HB HM. destruct M as [|x y]; [reflexivity|]. cbn [xof dblx].
  destruct (kdec (fx A x) 0) as [E|N].
  - assert (y = 0) as -> by (apply (y0 F A B HB x y HM); auto). rewrite (padd_opp F A B) by ring. reflexivity.
  - assert (Ny : y <> 0) by (intros E; apply N; apply (y0 F A B HB x y HM); auto).
    destruct (double_x F two A B HB x y HM Ny) as [y2 ->]. reflexivity.
Qed.
Lemma tplx_pt (A B : F) M : A * A <> 4 -> B <> 0 -> on A B M -> tplx A (xof M) = xof (padd A B M (padd A B M M)).
Proof.
  intros HA HB HM. destruct M as [|x y]; [reflexivity|].
  assert (H1 : xz x 1 (Aff x y)) by (split; [apply (one_nz F)|ring]).
  pose proof (xTPL_ok F unit sqrt lt enc dec rnd two A B HA HB (@mkPt O x 1) _ _ 1 (Aff x y) HM H1 (one_nz F) eq_refl eq_refl) as H.
  unfold xzp in H. rewrite (xTPL_form F unit sqrt lt enc dec rnd A (@mkPt O x 1) _ _ 1 eq_refl eq_refl x) in H by (cbn [pX pZ]; match goal with |- ?a = ?b => change (@eq (K F) a b) end; ring).
  cbn [pX pZ] in H. set (R := padd A B (Aff x y) (padd A B (Aff x y) (Aff x y))) in *.
  change (FldCurve.psi3 F A x) with (div3 A x) in H. change (FldCurve.tht F A x) with (num3 A x) in H.
  assert (C : 2 * 4 * 4 <> 0 :> F) by (repeat apply (mul_nz F); exact two).
  cbn [xof tplx]. destruct (kdec (div3 A x) 0) as [E|N]; destruct R as [|xr yr]; cbn [xof xz] in *; auto.
  - destruct H as [H _]. exfalso. apply H. rewrite E. ring.
  - destruct H as [_ H]. exfalso. revert H. replace (2 * 4 * 4 * (1 * 1) * (div3 A x * div3 A x) * (1 * (1 * 1 * (1 * 1)) * (1 * 1 * (1 * 1))))
      with (2 * 4 * 4 * (div3 A x * div3 A x)) by ring. repeat apply (mul_nz F); auto.
  - destruct H as [_ H]. f_equal. apply (mul_cancel F) with (2 * 4 * 4 * (div3 A x * div3 A x)); [repeat apply (mul_nz F); auto|].
    transitivity (2 * 4 * 4 * (1 * 1) * (x * (num3 A x * num3 A x)) * (1 * (1 * 1 * (1 * 1)) * (1 * 1 * (1 * 1)))); [field; auto|].
    rewrite H. ring.
Qed.
Section Curve1.
Variable A : F.
Hypothesis HA : A * A <> 4.
Lemma dbl_rep (Q : pt O) a c q : repp Q q -> c <> 0 -> 4 * a = (A + 2) * c -> repp (xDBL O Q a c) (dblx A q).
Proof.
  intros HQ Hc Ha. destruct (lift A q) as (B & M & HB & HM & <-). apply rep_xz in HQ.
  rewrite (dblx_pt A B M HA HB HM). apply rep_xz. apply (xDBL_ok F unit sqrt lt enc dec rnd two A B HA HB); auto.
Qed.
Lemma tpl_rep (Q : pt O) am ap s q : repp Q q -> s <> 0 -> am = (A - 2) * s -> ap = (A + 2) * s -> repp (xTPL O Q am ap) (tplx A q).
Proof.
  intros HQ Hs Hm Hp. destruct (lift A q) as (B & M & HB & HM & <-). apply rep_xz in HQ.
  rewrite (tplx_pt A B M HA HB HM). apply rep_xz. apply (xTPL_ok F unit sqrt lt enc dec rnd two A B HA HB) with (s := s); auto.
Qed.
Lemma dble_rep n (Q : pt O) a c q : repp Q q -> c <> 0 -> 4 * a = (A + 2) * c -> repp (xDBLe O Q a c n) (Nat.iter n (dblx A) q).
Proof.
  intros HQ Hc Ha. unfold xDBLe. revert Q q HQ. induction n as [|n IH]; intros Q q HQ; [exact HQ|]. cbn. apply dbl_rep; auto. now apply IH.
Qed.
Lemma tple_rep n (Q : pt O) am ap s q : repp Q q -> s <> 0 -> am = (A - 2) * s -> ap = (A + 2) * s -> repp (xTPLe O Q am ap n) (Nat.iter n (tplx A) q).
Proof.
  intros HQ Hs Hm Hp. unfold xTPLe. revert Q q HQ. induction n as [|n IH]; intros Q q HQ; [exact HQ|]. cbn. apply tpl_rep with (s := s); auto. now apply IH.
Qed.
Lemma is_inf (Q : pt O) q : repp Q q -> ((pZ Q : F) = 0 <-> q = XInf).
Proof. destruct q as [|x]; cbn [repp rep]; intros [H1 H2]; split; auto; [contradiction|discriminate]. Qed.
End Curve1.
End XL.
