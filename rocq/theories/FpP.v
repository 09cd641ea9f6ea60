(** Exact value and range of every GF(p) digit-level operation (proofs only). *)
From Verif Require Import Base BaseP Digits DigitsP CombaP Params Fp Wf.

Section P.
Variable P : params.
Hypothesis HW : Wf P.
Local Notation w := (radix P).
Local Notation n := (nwords P).
Local Notation p := (par_p P).
Local Notation R := (par_R P).
Local Notation val := (valB (2 ^ radix P)).
Local Notation ok := (ok P).

Lemma w2 : 2 <= w.
Proof. pose proof (wf_radix P HW). lia. Qed.
Lemma Bpos : 0 < 2 ^ w.
Proof. exact (B_pos w w2). Qed.
Lemma Rpos : 0 < R.
Proof. apply Z.pow_pos_nonneg; [exact Bpos | lia]. Qed.
Lemma ppos : 0 < p.
Proof.
  pose proof (wf_nbits P HW) as [H _]. pose proof (wf_nbits0 P HW).
  assert (0 < 2 ^ (nbits P - 1)) by (apply Z.pow_pos_nonneg; lia). lia.
Qed.
Lemma p_ge : 11 <= p.
Proof.
  pose proof (wf_shape P HW) as H. pose proof (wf_e2 P HW). pose proof (wf_e3 P HW).
  assert (2 ^ 2 <= 2 ^ Z.of_nat (e2 P)) by (apply Z.pow_le_mono_r; lia).
  assert (3 ^ 1 <= 3 ^ Z.of_nat (e3 P)) by (apply Z.pow_le_mono_r; lia).
  change (2 ^ 2) with 4 in *. change (3 ^ 1) with 3 in *.
  assert (4 * 3 <= 2 ^ Z.of_nat (e2 P) * 3 ^ Z.of_nat (e3 P)) by (apply Z.mul_le_mono_nonneg; lia). lia.
Qed.
Lemma Rhead : 256 * p <= R.
Proof. exact (wf_head P HW). Qed.
Lemma p_odd : Z.odd p = true.
Proof.
  pose proof (wf_shape P HW) as H. pose proof (wf_e2 P HW).
  replace p with (2 ^ Z.of_nat (e2 P) * 3 ^ Z.of_nat (e3 P) - 1) by lia.
  replace (Z.of_nat (e2 P)) with (Z.succ (Z.of_nat (e2 P) - 1)) by lia.
  rewrite Z.pow_succ_r by lia.
  rewrite Z.odd_sub, <- Z.mul_assoc, Z.odd_mul. reflexivity.
Qed.

Lemma ok_bound a : ok a -> 0 <= val a < R.
Proof. intros [L D]. pose proof (valB_bound _ a Bpos D) as H. rewrite L in H. exact H. Qed.

Lemma ok_zero : ok (fpzero P).
Proof. split; [apply repeat_length | apply digits_repeat0, Bpos]. Qed.
Lemma val_zero : val (fpzero P) = 0.
Proof. apply valB_repeat0. Qed.

Lemma addc_ok a b : ok a -> ok b ->
  exists c r, addc_loop w 0 a b = (c, r) /\ ok r /\ 0 <= c <= 1 /\ val a + val b = val r + R * c.
Proof.
  intros [La Da] [Lb Db].
  pose proof (addc_loop_spec w w2 0 a b ltac:(lia) Da Db ltac:(congruence)) as H.
  destruct (addc_loop w 0 a b) as [c r]. destruct H as (L & D & C & E).
  exists c, r. split; auto. split; [split; [congruence|exact D]|]. split; auto.
  rewrite La in E. unfold par_R, Digits.B in *. lia.
Qed.

Lemma subc_ok a b : ok a -> ok b ->
  exists c r, subc_loop w 0 a b = (c, r) /\ ok r /\ 0 <= c <= 1 /\ val a - val b = val r - R * c.
Proof.
  intros [La Da] [Lb Db].
  pose proof (subc_loop_spec w w2 0 a b ltac:(lia) Da Db ltac:(congruence)) as H.
  destruct (subc_loop w 0 a b) as [c r]. destruct H as (L & D & C & E).
  exists c, r. split; auto. split; [split; [congruence|exact D]|]. split; auto.
  rewrite La in E. unfold par_R, Digits.B in *. lia.
Qed.

Lemma masked_gen c t : 0 <= c <= 1 -> digits (2 ^ w) t ->
  masked P c t = if c =? 0 then repeat 0 (length t) else t.
Proof.
  intros Hc D. unfold masked. pose proof Bpos as HB. pose proof (B_ge4 w w2) as HB4. unfold Digits.B in HB4.
  destruct (Z.eqb_spec c 0) as [->|].
  - induction t as [|x t IH]; [reflexivity|]. inversion D; subst. cbn [map length repeat].
    f_equal; [|apply IH; auto]. unfold dsub. rewrite Z.sub_diag, Z.mod_0_l by (unfold Digits.B; lia).
    apply Z.land_0_r.
  - assert (c = 1) by lia. subst c.
    induction t as [|x t IH]; [reflexivity|]. inversion D; subst. cbn [map].
    f_equal; [|apply IH; auto].
    assert (E : dsub w 0 1 = Z.ones w).
    { unfold dsub. rewrite Z.ones_equiv. unfold Digits.B.
      symmetry. apply Z.mod_unique with (q := -1); [left|]; unfold Z.pred; lia. }
    rewrite E, Z.land_ones by (pose proof w2; lia). apply Z.mod_small. auto.
Qed.

Lemma masked_ok c t : 0 <= c <= 1 -> ok t -> ok (masked P c t) /\ val (masked P c t) = c * val t.
Proof.
  intros Hc [L D]. rewrite masked_gen by auto. destruct (Z.eqb_spec c 0) as [->|].
  - rewrite L. split; [apply ok_zero|]. rewrite valB_repeat0. lia.
  - assert (c = 1) by lia. subst. split; [split; auto|]. lia.
Qed.

(** Only one carry value is possible when the result is known to lie in [0,R). *)
Lemma carry_unique v r c c' : v = r + R * c -> 0 <= r < R -> 0 <= v - R * c' < R -> c = c'.
Proof.
  intros E Hr Hv. pose proof Rpos as HR.
  assert (R * (c - c') < R * 1) by lia. assert (R * (c' - c) < R * 1) by lia.
  apply Z.mul_lt_mono_pos_l in H; auto. apply Z.mul_lt_mono_pos_l in H0; auto. lia.
Qed.

Ltac two := pose proof ppos as Hp; pose proof Rhead as HRh; pose proof Rpos as HR.

Lemma fpadd_val a b : ok a -> ok b -> val a + val b <= 4 * p ->
  ok (fpadd P a b) /\
  val (fpadd P a b) = if val a + val b <? 2 * p then val a + val b else val a + val b - 2 * p.
Proof.
  intros Ha Hb H. two. unfold fpadd.
  destruct (addc_ok a b Ha Hb) as (c1 & r1 & E1 & O1 & C1 & V1). rewrite E1.
  destruct (subc_ok r1 (w_px2 P) O1 (wf_px2 P HW)) as (c2 & r2 & E2 & O2 & C2 & V2). rewrite E2.
  destruct (masked_ok c2 (w_px2 P) C2 (wf_px2 P HW)) as [O3 V3].
  destruct (addc_ok r2 _ O2 O3) as (c4 & r4 & E4 & O4 & C4 & V4). rewrite E4.
  split; auto. rewrite V3 in V4. rewrite (wf_vpx2 P HW) in *.
  pose proof (ok_bound _ Ha). pose proof (ok_bound _ Hb). pose proof (ok_bound _ O1).
  pose proof (ok_bound _ O2). pose proof (ok_bound _ O4).
  assert (c1 = 0) by (apply (carry_unique (val a + val b) (val r1)); lia). subst c1.
  destruct (Z.ltb_spec (val a + val b) (2 * p)).
  - assert (c2 = 1) by (assert (- c2 = -1) by (apply (carry_unique (val r1 - 2 * p) (val r2)); lia); lia).
    subst c2.
    assert (c4 = 1) by (apply (carry_unique (val r2 + 1 * (2 * p)) (val r4)); lia). lia.
  - assert (c2 = 0) by (assert (- c2 = 0) by (apply (carry_unique (val r1 - 2 * p) (val r2)); lia); lia).
    subst c2.
    assert (c4 = 0) by (apply (carry_unique (val r2 + 0 * (2 * p)) (val r4)); lia). lia.
Qed.

Lemma fpsub_val a b : ok a -> ok b -> val b <= val a + 2 * p ->
  ok (fpsub P a b) /\
  val (fpsub P a b) = if val a <? val b then val a - val b + 2 * p else val a - val b.
Proof.
  intros Ha Hb H. two. unfold fpsub.
  destruct (subc_ok a b Ha Hb) as (c2 & r2 & E2 & O2 & C2 & V2). rewrite E2.
  destruct (masked_ok c2 (w_px2 P) C2 (wf_px2 P HW)) as [O3 V3].
  destruct (addc_ok r2 _ O2 O3) as (c4 & r4 & E4 & O4 & C4 & V4). rewrite E4.
  split; auto. rewrite V3 in V4. rewrite (wf_vpx2 P HW) in *.
  pose proof (ok_bound _ Ha). pose proof (ok_bound _ Hb).
  pose proof (ok_bound _ O2). pose proof (ok_bound _ O4).
  destruct (Z.ltb_spec (val a) (val b)).
  - assert (c2 = 1) by (assert (- c2 = -1) by (apply (carry_unique (val a - val b) (val r2)); lia); lia).
    subst c2.
    assert (c4 = 1) by (apply (carry_unique (val r2 + 1 * (2 * p)) (val r4)); lia). lia.
  - assert (c2 = 0) by (assert (- c2 = 0) by (apply (carry_unique (val a - val b) (val r2)); lia); lia).
    subst c2.
    assert (c4 = 0) by (apply (carry_unique (val r2 + 0 * (2 * p)) (val r4)); lia). lia.
Qed.

Lemma fpneg_val a : ok a -> val a <= 2 * p -> ok (fpneg P a) /\ val (fpneg P a) = 2 * p - val a.
Proof.
  intros Ha H. two. unfold fpneg.
  destruct (subc_ok (w_px2 P) a (wf_px2 P HW) Ha) as (c2 & r2 & E2 & O2 & C2 & V2). rewrite E2.
  split; auto. rewrite (wf_vpx2 P HW) in *.
  pose proof (ok_bound _ Ha). pose proof (ok_bound _ O2).
  assert (- c2 = 0) by (apply (carry_unique (2 * p - val a) (val r2)); lia). lia.
Qed.

Lemma fpcorrection_val a : ok a -> val a < R - p ->
  ok (fpcorrection P a) /\ val (fpcorrection P a) = if val a <? p then val a else val a - p.
Proof.
  intros Ha H. two. unfold fpcorrection.
  destruct (subc_ok a (w_p P) Ha (wf_p P HW)) as (c2 & r2 & E2 & O2 & C2 & V2). rewrite E2.
  destruct (masked_ok c2 (w_p P) C2 (wf_p P HW)) as [O3 V3].
  destruct (addc_ok r2 _ O2 O3) as (c4 & r4 & E4 & O4 & C4 & V4). rewrite E4.
  split; auto. rewrite V3 in V4. fold p in V2, V4.
  pose proof (ok_bound _ Ha).
  pose proof (ok_bound _ O2). pose proof (ok_bound _ O4).
  destruct (Z.ltb_spec (val a) p).
  - assert (c2 = 1) by (assert (- c2 = -1) by (apply (carry_unique (val a - p) (val r2)); lia); lia).
    subst c2.
    assert (c4 = 1) by (apply (carry_unique (val r2 + 1 * p) (val r4)); lia). lia.
  - assert (c2 = 0) by (assert (- c2 = 0) by (apply (carry_unique (val a - p) (val r2)); lia); lia).
    subst c2.
    assert (c4 = 0) by (apply (carry_unique (val r2 + 0 * p) (val r4)); lia). lia.
Qed.

Lemma sub_then_add a b t : ok a -> ok b -> ok t -> val b <= val a + val t -> val a + val t < R ->
  let r := (let '(_, c) := subc_loop w 0 a b in let '(_, c) := addc_loop w 0 c t in c) in
  ok r /\ val r = val a - val b + val t.
Proof.
  intros Ha Hb Ht H1 H2. two.
  destruct (subc_ok a b Ha Hb) as (c2 & r2 & E2 & O2 & C2 & V2). rewrite E2.
  destruct (addc_ok r2 t O2 Ht) as (c4 & r4 & E4 & O4 & C4 & V4). rewrite E4.
  cbv zeta. split; auto.
  pose proof (ok_bound _ Ha). pose proof (ok_bound _ Hb). pose proof (ok_bound _ Ht).
  pose proof (ok_bound _ O2). pose proof (ok_bound _ O4).
  assert (c4 = c2) by (apply (carry_unique (val r2 + val t) (val r4)); lia). subst. lia.
Qed.

Lemma mp_sub_p2_val a b : ok a -> ok b -> val b <= val a + 2 * p -> val a + 2 * p < R ->
  ok (mp_sub_p2 P a b) /\ val (mp_sub_p2 P a b) = val a - val b + 2 * p.
Proof.
  intros Ha Hb H1 H2. rewrite <- (wf_vpx2 P HW).
  apply sub_then_add; auto using (wf_px2 P HW); rewrite (wf_vpx2 P HW); auto.
Qed.

Lemma mp_sub_p4_val a b : ok a -> ok b -> val b <= val a + 4 * p -> val a + 4 * p < R ->
  ok (mp_sub_p4 P a b) /\ val (mp_sub_p4 P a b) = val a - val b + 4 * p.
Proof.
  intros Ha Hb H1 H2. rewrite <- (wf_vpx4 P HW).
  apply sub_then_add; auto using (wf_px4 P HW); rewrite (wf_vpx4 P HW); auto.
Qed.

Lemma mp_addfast_val a b : ok a -> ok b -> val a + val b < R ->
  ok (mp_addfast P a b) /\ val (mp_addfast P a b) = val a + val b.
Proof.
  intros Ha Hb H. two. unfold mp_addfast, mp_add.
  destruct (addc_ok a b Ha Hb) as (c1 & r1 & E1 & O1 & C1 & V1). rewrite E1. cbn [snd].
  split; auto. pose proof (ok_bound _ Ha). pose proof (ok_bound _ Hb). pose proof (ok_bound _ O1).
  assert (c1 = 0) by (apply (carry_unique (val a + val b) (val r1)); lia). subst. lia.
Qed.

Lemma val_parity a : ok a -> Z.land (nth 0 a 0) 1 = val a mod 2.
Proof.
  intros [L D]. pose proof (wf_n1 P HW). destruct a as [|x a]; [cbn in L; lia|].
  cbn [nth valB]. change 1 with (Z.ones 1). rewrite Z.land_ones by lia. change (2 ^ 1) with 2.
  pose proof (B_half w w2) as E. unfold Digits.B in E. rewrite E.
  replace (x + 2 * 2 ^ (w - 1) * valB (2 * 2 ^ (w - 1)) a) with (x + (2 ^ (w - 1) * valB (2 * 2 ^ (w - 1)) a) * 2) by ring.
  rewrite Z_mod_plus_full. reflexivity.
Qed.

Lemma fpdiv2_val a : ok a -> val a < R - p ->
  ok (fpdiv2 P a) /\ val (fpdiv2 P a) = (val a + (val a mod 2) * p) / 2.
Proof.
  intros Ha H. two. unfold fpdiv2. rewrite val_parity by auto.
  assert (C : 0 <= val a mod 2 <= 1) by (pose proof (Z.mod_pos_bound (val a) 2); lia).
  destruct (masked_ok (val a mod 2) (w_p P) C (wf_p P HW)) as [O3 V3].
  destruct (addc_ok a _ Ha O3) as (c4 & r4 & E4 & O4 & C4 & V4). rewrite E4.
  rewrite V3 in V4. fold p in V4.
  pose proof (ok_bound _ Ha). pose proof (ok_bound _ O4).
  assert (Hm : val a mod 2 = 0 \/ val a mod 2 = 1) by lia.
  assert (c4 = 0).
  { apply (carry_unique (val a + val a mod 2 * p) (val r4)); auto.
    destruct Hm as [-> | ->]; lia. }
  subst c4.
  destruct O4 as [L4 D4]. destruct (mp_shiftr1_spec w w2 r4 D4) as (L5 & D5 & V5).
  split; [split; [congruence|exact D5]|]. rewrite V4. unfold Digits.B in V5. rewrite V5. f_equal. lia.
Qed.

(** ** Multiplication *)
Definition hw : Z := w / 2.
Lemma hw2 : w = 2 * hw /\ 2 <= hw.
Proof.
  unfold hw. pose proof (wf_radix8 P HW) as H. pose proof (wf_radix P HW).
  assert (w mod 2 = 0).
  { pose proof (Z.div_mod w 8 ltac:(lia)) as E. rewrite H in E. rewrite E.
    replace (8 * (w / 8) + 0) with ((4 * (w / 8)) * 2) by ring. apply Z_mod_mult. }
  pose proof (Z.div_mod w 2 ltac:(lia)). lia.
Qed.

Lemma mp_mul_ok a b : ok a -> ok b ->
  length (mp_mul w a b n) = (2 * n)%nat /\ digits (2 ^ w) (mp_mul w a b n) /\
  val (mp_mul w a b n) = val a * val b.
Proof.
  intros Ha Hb. destruct hw2 as [E H2]. destruct Ha as [La Da]. destruct Hb as [Lb Db].
  pose proof (wf_n1 P HW) as [N1 _]. pose proof (wf_nB P HW) as NB.
  pose proof (mp_mul_spec hw H2 a b n N1) as S. rewrite <- E in S. unfold Digits.B in S.
  specialize (S NB La Lb Da Db). rewrite S.
  split; [apply toB_length|]. split; [apply toB_digits, Bpos|].
  rewrite valB_toB by apply Bpos.
  pose proof (ok_bound a (conj La Da)). pose proof (ok_bound b (conj Lb Db)).
  apply Z.mod_small. split; [apply Z.mul_nonneg_nonneg; lia|].
  replace (Z.of_nat (2 * n)) with (Z.of_nat n + Z.of_nat n) by lia.
  rewrite Z.pow_add_r by lia. fold R. apply Z.mul_lt_mono_nonneg; lia.
Qed.

Definition rdc := rdc_mont w (w_pp1 P) (zwords P) n.

Lemma rdc_ok m : length m = (2 * n)%nat -> digits (2 ^ w) m -> val m < R * p ->
  exists q, 0 <= q < R /\ ok (rdc m) /\ R * val (rdc m) = val m + q * p /\ 0 <= val (rdc m) < 2 * p.
Proof.
  intros L D H. two. destruct hw2 as [E H2].
  pose proof (wf_n1 P HW) as [N1 N2]. pose proof (wf_nB P HW) as NB. destruct (wf_pp1 P HW) as [Lp Dp].
  pose proof (rdc_mont_exact hw H2 (w_pp1 P) (zwords P) n m p N1) as S. rewrite <- E in S. unfold Digits.B in S.
  destruct (S NB) as (q & Hq & L1 & D1 & V1 & B1); auto.
  - assert (Z.of_nat n <= 100) by lia. change (2 ^ 31) with 2147483648. lia.
  - apply (wf_zw P HW).
  - apply (wf_zeros P HW).
  - apply (wf_vpp1 P HW).
  - fold R. lia.
  - exists q. unfold rdc. split; auto. split; [split; auto|]. split; auto.
Qed.

Lemma fpmul_mont_val a b : ok a -> ok b -> val a * val b < R * p ->
  ok (fpmul_mont P a b) /\ 0 <= val (fpmul_mont P a b) < 2 * p /\
  exists q, 0 <= q < R /\ R * val (fpmul_mont P a b) = val a * val b + q * p.
Proof.
  intros Ha Hb H. destruct (mp_mul_ok a b Ha Hb) as (L & D & V).
  destruct (rdc_ok _ L D) as (q & Hq & O & E & Bd); [rewrite V; exact H|].
  unfold fpmul_mont. fold rdc. rewrite V in E. split; auto. split; auto. exists q. auto.
Qed.

Lemma fpsqr_mont_eq a : fpsqr_mont P a = fpmul_mont P a a.
Proof. reflexivity. Qed.

(** ** The statements in the documented ranges *)
Lemma mod_shift x k : (x + k * p) mod p = x mod p.
Proof. apply Z_mod_plus_full. Qed.

Lemma fpadd_range a b : ok a -> ok b -> val a < 2 * p -> val b < 2 * p ->
  ok (fpadd P a b) /\ 0 <= val (fpadd P a b) < 2 * p /\ (val (fpadd P a b)) mod p = (val a + val b) mod p.
Proof.
  intros Ha Hb H1 H2. pose proof (ok_bound _ Ha). pose proof (ok_bound _ Hb).
  destruct (fpadd_val a b Ha Hb) as [O V]; [lia|]. split; auto. rewrite V.
  destruct (Z.ltb_spec (val a + val b) (2 * p)); split; try lia; auto.
  replace (val a + val b - 2 * p) with (val a + val b + (-2) * p) by ring. apply mod_shift.
Qed.

Lemma fpsub_range a b : ok a -> ok b -> val a < 2 * p -> val b < 2 * p ->
  ok (fpsub P a b) /\ 0 <= val (fpsub P a b) < 2 * p /\ (val (fpsub P a b)) mod p = (val a - val b) mod p.
Proof.
  intros Ha Hb H1 H2. pose proof (ok_bound _ Ha). pose proof (ok_bound _ Hb).
  destruct (fpsub_val a b Ha Hb) as [O V]; [lia|]. split; auto. rewrite V.
  destruct (Z.ltb_spec (val a) (val b)); split; try lia; auto. apply mod_shift.
Qed.

Lemma fpneg_range a : ok a -> val a < 2 * p ->
  ok (fpneg P a) /\ 0 < val (fpneg P a) <= 2 * p /\ (val (fpneg P a)) mod p = (- val a) mod p /\
  (val (fpneg P a) = 2 * p <-> val a = 0).
Proof.
  intros Ha H1. pose proof (ok_bound _ Ha).
  destruct (fpneg_val a Ha) as [O V]; [lia|]. split; auto. rewrite V.
  split; [lia|]. split; [|lia]. replace (2 * p - val a) with (- val a + 2 * p) by ring. apply mod_shift.
Qed.

Lemma fpdiv2_range a : ok a -> val a < 2 * p ->
  ok (fpdiv2 P a) /\ 0 <= val (fpdiv2 P a) < 2 * p /\ (2 * val (fpdiv2 P a)) mod p = val a mod p.
Proof.
  intros Ha H1. two. pose proof (ok_bound _ Ha).
  destruct (fpdiv2_val a Ha) as [O V]; [lia|]. split; auto. rewrite V.
  pose proof p_odd as Po. rewrite Zodd_mod in Po. apply Zeq_bool_eq in Po.
  assert (E : (val a + val a mod 2 * p) mod 2 = 0).
  { rewrite Z.add_mod, Z.mul_mod, Po by lia. rewrite Zmod_mod.
    assert (val a mod 2 = 0 \/ val a mod 2 = 1) as [-> | ->] by (pose proof (Z.mod_pos_bound (val a) 2); lia);
      reflexivity. }
  pose proof (Z.div_mod (val a + val a mod 2 * p) 2 ltac:(lia)) as D. rewrite E in D.
  assert (Hm : 0 <= val a mod 2 * p <= p).
  { pose proof (Z.mod_pos_bound (val a) 2 ltac:(lia)).
    assert (val a mod 2 = 0 \/ val a mod 2 = 1) as [-> | ->] by lia; lia. }
  split; [lia|].
  replace (2 * ((val a + val a mod 2 * p) / 2)) with (val a + val a mod 2 * p) by lia. apply mod_shift.
Qed.

Lemma fpcorrection_range a : ok a -> val a < 2 * p ->
  ok (fpcorrection P a) /\ val (fpcorrection P a) = val a mod p.
Proof.
  intros Ha H1. two. pose proof (ok_bound _ Ha).
  destruct (fpcorrection_val a Ha) as [O V]; [lia|]. split; auto. rewrite V.
  destruct (Z.ltb_spec (val a) p).
  - symmetry. apply Z.mod_small. lia.
  - apply Z.mod_unique with (q := 1); [left|]; lia.
Qed.

Lemma fpmul_range a b : ok a -> ok b -> val a * val b < R * p ->
  ok (fpmul_mont P a b) /\ 0 <= val (fpmul_mont P a b) < 2 * p /\
  (R * val (fpmul_mont P a b)) mod p = (val a * val b) mod p.
Proof.
  intros Ha Hb H. destruct (fpmul_mont_val a b Ha Hb H) as (O & Bd & q & Hq & E).
  split; auto. split; auto. rewrite E. apply mod_shift.
Qed.

End P.

Lemma fpneg_zero_refuted : forall t, exists a,
  ok (P434 t) a /\ valB (2 ^ radix (P434 t)) a < 2 * par_p (P434 t) /\
  ~ valB (2 ^ radix (P434 t)) (fpneg (P434 t) a) < 2 * par_p (P434 t).
Proof.
  intros t. exists (fpzero (P434 t)). split; [apply (ok_zero _ (Wf_P434 t))|].
  rewrite val_zero. pose proof (ppos _ (Wf_P434 t)). split; [lia|].
  destruct (fpneg_val _ (Wf_P434 t) (fpzero (P434 t)) (ok_zero _ (Wf_P434 t))) as [_ V].
  { rewrite val_zero. lia. }
  rewrite V, val_zero. lia.
Qed.
