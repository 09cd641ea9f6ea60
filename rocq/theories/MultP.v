(** Multiples of a point. *)
From Coq Require Import Field.
From Verif Require Import Base Fld CurveSpec FldCurve GroupP.
Set Bullet Behavior "Strict Subproofs".

Section M.
Variable F : fld.
Hypothesis two : (kadd k1 k1 : F) <> k0.
Local Open Scope fld_scope.
Variables A B : F.
Hypothesis HA : A * A <> 4.
Hypothesis HB : B <> 0.
Local Notation on := (on A B). Local Notation padd := (padd A B). Local Notation pmul := (pmul A B).
Notation padd_on := (padd_on F two A B HA HB). Notation padd_comm := (padd_comm F two A B HA HB).
Notation padd_assoc := (padd_assoc F two A B HA HB).
Notation neg_on := (neg_on F A B).

Lemma pmul_on n M : on M -> on (pmul n M).
Proof. intros H. induction n; cbn; [exact I|now apply padd_on]. Qed.
Lemma pmul_add m n M : on M -> pmul (m + n) M = padd (pmul m M) (pmul n M).
Proof.
  intros H. induction m as [|m IH]; cbn [Nat.add CurveSpec.pmul]; [reflexivity|].
  rewrite IH. now rewrite padd_assoc by auto using pmul_on.
Qed.
Lemma pmul_1 M : pmul 1 M = M. Proof. apply padd_inf_r'. Qed.
Lemma pmul_2 M : pmul 2 M = padd M M. Proof. cbn. now rewrite padd_inf_r'. Qed.
Lemma pmul_3 M : pmul 3 M = padd M (padd M M). Proof. cbn. now rewrite padd_inf_r'. Qed.
Lemma pmul_inf n : pmul n Inf = Inf.
Proof. induction n; cbn; auto. Qed.
Lemma pmul_mul m n M : on M -> pmul (m * n) M = pmul m (pmul n M).
Proof.
  intros H. induction m as [|m IH]; cbn [Nat.mul CurveSpec.pmul]; [reflexivity|].
  rewrite pmul_add by auto. now rewrite IH.
Qed.
Lemma pmul_padd n M N : on M -> on N -> pmul n (padd M N) = padd (pmul n M) (pmul n N).
Proof.
  intros H1 H2. induction n as [|n IH]; cbn [CurveSpec.pmul]; [reflexivity|]. rewrite IH.
  pose proof (pmul_on n M H1). pose proof (pmul_on n N H2).
  rewrite !padd_assoc by auto using padd_on. f_equal.
  rewrite <- !padd_assoc by auto using padd_on. f_equal. now apply padd_comm.
Qed.
Lemma pmul_neg n M : on M -> pmul n (neg M) = neg (pmul n M).
Proof.
  intros H. induction n as [|n IH]; cbn [CurveSpec.pmul]; [reflexivity|]. rewrite IH. symmetry.
  apply (neg_padd F two A B HA HB); auto using pmul_on.
Qed.
Lemma padd_opp_eq M N : on M -> on N -> padd M N = Inf -> N = neg M.
Proof.
  intros H1 H2 E. pose proof (padd_cancel F two A B HA HB M N H1 H2) as C. rewrite E, padd_inf_r' in C. now rewrite C.
Qed.
Lemma pmul_sub n m M : on M -> (m <= n)%nat -> pmul (n - m) M = padd (pmul n M) (neg (pmul m M)).
Proof.
  intros H L. replace n with (m + (n - m))%nat at 2 by lia. rewrite pmul_add by auto.
  rewrite padd_comm by auto using padd_on, pmul_on, neg_on.
  now rewrite (padd_cancel F two A B HA HB) by auto using pmul_on.
Qed.
Lemma neg_inf_iff (M : point F) : neg M = Inf <-> M = Inf.
Proof. destruct M; cbn; split; intros; try discriminate; auto. Qed.
Lemma padd_inf_l_eq M N : on M -> on N -> padd M N = M -> N = Inf.
Proof.
  intros H1 H2 E. rewrite <- (padd_cancel F two A B HA HB M N H1 H2), E. apply padd_neg'.
Qed.
End M.
