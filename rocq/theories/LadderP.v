(** The Montgomery ladder. *)
From Coq Require Import Field.
From Verif Require Import Base BaseP Out Ops Ec Models Fld FieldOps CurveSpec FldCurve GroupP MultP.
Set Bullet Behavior "Strict Subproofs".

Section L.
Variable F : fld.
Variables (unit : F) (sqrt : F -> F) (lt : F -> F -> bool) (enc : F -> list Z) (dec : list Z -> F) (rnd : tape -> out (F * tape)).
Local Notation O := (fld_ops F unit sqrt lt enc dec rnd).
Hypothesis two : (kadd k1 k1 : F) <> k0.
Local Open Scope fld_scope.
Definition kthl := kth F.
Add Field KFl : kthl.
Variables A B : F.
Hypothesis HA : A * A <> 4.
Hypothesis HB : B <> 0.
Local Notation on := (on A B). Local Notation padd := (padd A B). Local Notation pmul := (pmul A B).
Local Notation xzp := (xzp F unit sqrt lt enc dec rnd).

Lemma xz_neg X Z (M : point F) : xz X Z M -> xz X Z (neg M).
Proof. destruct M; auto. Qed.

(** The i low bits removed. *)
Lemma nat_bit (v : Z) (i : nat) : (0 <= v)%Z ->
  Z.to_nat (v / 2 ^ Z.of_nat i) = (2 * Z.to_nat (v / 2 ^ Z.of_nat (S i)) + (if Z.testbit v (Z.of_nat i) then 1 else 0))%nat.
Proof.
  intros H. rewrite Z.testbit_odd, Z.shiftr_div_pow2 by lia.
  replace (2 ^ Z.of_nat (S i))%Z with (2 ^ Z.of_nat i * 2)%Z by (rewrite Nat2Z.inj_succ, Z.pow_succ_r by lia; ring).
  rewrite <- Z.div_div by (try apply Z.pow_nonzero; lia).
  assert (H0 : (0 <= v / 2 ^ Z.of_nat i)%Z) by (apply Z.div_pos; [|apply Z.pow_pos_nonneg]; lia).
  set (u := (v / 2 ^ Z.of_nat i)%Z) in *. clearbody u.
  pose proof (Z.div2_odd u) as D. rewrite Z.div2_div in D. pose proof (Z.div_pos u 2 H0).
  destruct (Z.odd u); cbn [Z.b2z] in D; lia.
Qed.
Lemma digit_bit (w : Z) (m : list Z) (i : nat) : (0 < w)%Z -> digits (2 ^ w) m -> (i < Z.to_nat w * length m)%nat ->
  ladder_bit w m i = Ok (Z.testbit (valB (2 ^ w) m) (Z.of_nat i)).
Proof.
  intros Hw Hd. unfold ladder_bit. set (n := Z.to_nat w). assert (Hn : w = Z.of_nat n) by lia. assert (n <> 0)%nat by lia.
  revert i. induction Hd as [|d m Hd Hm IH]; intros i Hi; [cbn in Hi; lia|].
  cbn [valB]. destruct (Nat.lt_ge_cases i n) as [L|G].
  - rewrite Nat.div_small, Nat.mod_small by lia. cbn [nth_error]. f_equal.
    rewrite <- (Z.mod_pow2_bits_low (d + 2 ^ w * valB (2 ^ w) m) w (Z.of_nat i)) by lia.
    rewrite Z.mul_comm, Z.mod_add by (apply Z.pow_nonzero; lia). now rewrite Z.mod_small by lia.
  - specialize (IH (i - n)%nat ltac:(cbn in Hi; lia)).
    assert (Hi' : i = (i - n + 1 * n)%nat) by lia. set (j := (i - n)%nat) in *. clearbody j. subst i.
    rewrite Nat.div_add, Nat.mod_add by lia. rewrite Nat.add_1_r. cbn [nth_error].
    rewrite IH. f_equal.
    transitivity (Z.testbit ((d + 2 ^ w * valB (2 ^ w) m) / 2 ^ w) (Z.of_nat j)).
    + f_equal. rewrite Z.mul_comm, Z.div_add by (apply Z.pow_nonzero; lia). rewrite Z.div_small by lia. lia.
    + rewrite Z.div_pow2_bits by lia. f_equal. lia.
Qed.

Section Run.
Variables (w : Z) (m : list Z) (P : pt O) (M : point F).
Hypothesis Hw : (0 < w)%Z.
Hypothesis Hd : digits (2 ^ w) m.
Hypothesis HM : on M.
Hypothesis HP : xzp P M.
Hypothesis NX : (pX P : F) <> 0.
Hypothesis NZ : (pZ P : F) <> 0.
Variable a : F.
Hypothesis Ha : 4 * a = A + 2.
Let v := valB (2 ^ w) m.

Lemma v_nonneg : (0 <= v)%Z.
Proof. unfold v. clear - Hd Hw. induction Hd; cbn [valB]; [lia|]. assert (0 < 2 ^ w)%Z by (apply Z.pow_pos_nonneg; lia). nia. Qed.

Notation padd_assoc := (padd_assoc F two A B HA HB). Notation padd_comm := (padd_comm F two A B HA HB).
Notation pmul_on := (pmul_on F two A B HA HB).

Lemma ladder_step n R0 R1 b : xzp R0 (pmul n M) -> xzp R1 (pmul (S n) M) ->
  let (T0, T1) := swap_points O b R0 R1 in
  let (U0, U1) := xDBLADD O T0 T1 (pX P) (pZ P) a in
  let (S0, S1) := swap_points O b U0 U1 in
  let n' := (2 * n + if b then 1 else 0)%nat in
  xzp S0 (pmul n' M) /\ xzp S1 (pmul (S n') M).
Proof.
  intros H0 H1.
  assert (Hn : on (pmul n M)) by (now apply pmul_on). assert (Hn1 : on (pmul (S n) M)) by (now apply pmul_on).
  assert (D : padd (pmul (S n) M) (neg (pmul n M)) = M).
  { rewrite <- (pmul_sub F two A B HA HB) by (auto; lia). replace (S n - n)%nat with 1%nat by lia. apply pmul_1. }
  assert (D' : padd (pmul n M) (neg (pmul (S n) M)) = neg M).
  { transitivity (neg (padd (pmul (S n) M) (neg (pmul n M)))); [|now rewrite D]. rewrite (neg_padd F two A B HA HB) by auto using neg_on. rewrite neg_neg. apply padd_comm; auto using neg_on. }
  assert (E2 : pmul (2 * n) M = padd (pmul n M) (pmul n M)).
  { rewrite <- (pmul_add F two A B HA HB) by auto. f_equal. lia. }
  assert (E3 : pmul (2 * n + 1) M = padd (pmul n M) (pmul (S n) M)).
  { rewrite <- (pmul_add F two A B HA HB) by auto. f_equal. lia. }
  assert (E4 : pmul (2 * n + 2) M = padd (pmul (S n) M) (pmul (S n) M)).
  { rewrite <- (pmul_add F two A B HA HB) by auto. f_equal. lia. }
  unfold swap_points. destruct b.
  - destruct (xDBLADD O R1 R0 (pX P) (pZ P) a) as [U0 U1] eqn:E. cbv zeta.
    replace (S (2 * n + 1)) with (2 * n + 2)%nat by lia. rewrite E3, E4. split.
    + rewrite padd_comm by auto. change U1 with (snd (U0, U1)). rewrite <- E.
      apply (xADD_ok F unit sqrt lt enc dec rnd two A B HB); auto. now rewrite D.
    + change U0 with (fst (U0, U1)). rewrite <- E. now apply (xDBLADD_dbl F unit sqrt lt enc dec rnd two A B HA HB).
  - destruct (xDBLADD O R0 R1 (pX P) (pZ P) a) as [U0 U1] eqn:E. cbv zeta.
    rewrite !Nat.add_0_r. replace (S (2 * n)) with (2 * n + 1)%nat by lia. rewrite E2, E3. split.
    + change U0 with (fst (U0, U1)). rewrite <- E. now apply (xDBLADD_dbl F unit sqrt lt enc dec rnd two A B HA HB).
    + change U1 with (snd (U0, U1)). rewrite <- E.
      apply (xADD_ok F unit sqrt lt enc dec rnd two A B HB); auto. rewrite D'. now apply xz_neg.
Qed.

Lemma swap_swap b c (R0 R1 : pt O) : let (S0, S1) := swap_points O b R0 R1 in swap_points O c S0 S1 = swap_points O (xorb c b) R0 R1.
Proof. destruct b, c; reflexivity. Qed.

Variable N : nat.
Hypothesis HN : (N <= Z.to_nat w * length m)%nat.
Let V := (v mod 2 ^ Z.of_nat N)%Z.
Lemma V_nonneg : (0 <= V < 2 ^ Z.of_nat N)%Z.
Proof. unfold V. apply Z.mod_pos_bound. apply Z.pow_pos_nonneg; lia. Qed.
Lemma ladder_loop_ok i prev R0 R1 : (i <= N)%nat ->
  (let (S0, S1) := swap_points O prev R0 R1 in
   let n := Z.to_nat (V / 2 ^ Z.of_nat i) in xzp S0 (pmul n M) /\ xzp S1 (pmul (S n) M)) ->
  exists b U0 U1, ladder_loop O w m P a i prev R0 R1 = Ok (b, U0, U1) /\
    xzp (fst (swap_points O b U0 U1)) (pmul (Z.to_nat V) M).
Proof.
  revert prev R0 R1. induction i as [|i IH]; intros prev R0 R1 Hi H; cbn [ladder_loop].
  - exists prev, R0, R1. split; [reflexivity|].
    destruct (swap_points O prev R0 R1) as [S0 S1]. cbn [fst]. cbv zeta in H. rewrite Z.div_1_r in H. apply H.
  - rewrite digit_bit by (auto; lia). cbn [bind]. fold v.
    assert (Hb : Z.testbit v (Z.of_nat i) = Z.testbit V (Z.of_nat i)) by (unfold V; now rewrite Z.mod_pow2_bits_low by lia).
    rewrite Hb. set (b := Z.testbit V (Z.of_nat i)) in *.
    pose proof (swap_swap prev b R0 R1) as SS.
    destruct (swap_points O prev R0 R1) as [S0 S1]. cbv zeta in H. destruct H as [H0 H1].
    rewrite <- SS. pose proof (ladder_step _ S0 S1 b H0 H1) as St.
    destruct (swap_points O b S0 S1) as [T0 T1].
    destruct (xDBLADD O T0 T1 (pX P) (pZ P) a) as [U0 U1].
    apply IH; [lia|]. destruct (swap_points O b U0 U1) as [X0 X1]. cbv zeta in St |- *.
    rewrite (nat_bit V i) by apply V_nonneg. exact St.
Qed.
End Run.

Theorem Ladder_ok (w : Z) (m : list Z) (P : pt O) (M : point F) (N : nat) :
  (0 < w)%Z -> digits (2 ^ w) m -> (N <= Z.to_nat w * length m)%nat ->
  on M -> xzp P M -> (pX P : F) <> 0 -> (pZ P : F) <> 0 ->
  exists R, Ladder O w P m A N = Ok R /\ xzp R (pmul (Z.to_nat (valB (2 ^ w) m mod 2 ^ Z.of_nat N)) M).
Proof.
  intros Hw Hd HN HM HP NX NZ. unfold Ladder.
  assert (Ha : 4 * ladder_A24 O A = A + 2).
  { unfold ladder_A24. cbn. match goal with |- @eq ?T _ _ => change T with (K F) end. field. exact two. }
  destruct (ladder_loop_ok w m P M Hw Hd HM HP NX NZ (ladder_A24 O A) Ha N HN N false (@mkPt O 1 0) P) as (b & U0 & U1 & E & H).
  - lia.
  - unfold swap_points. rewrite Z.div_small by (apply Z.mod_pos_bound; apply Z.pow_pos_nonneg; lia). cbv zeta.
    split.
    + split; [apply (one_nz F)|reflexivity].
    + cbn [Z.to_nat CurveSpec.pmul]. rewrite padd_inf_r'. exact HP.
  - cbn [fld_ops o_one o_zero]. rewrite E. cbn [bind]. eexists. split; [reflexivity|]. exact H.
Qed.
End L.
