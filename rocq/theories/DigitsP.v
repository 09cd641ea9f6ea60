(** Correctness of the digit layer (proofs only). *)
From Verif Require Import Base BaseP Digits.

Section P.
Variable w : Z.
Hypothesis Hw : 2 <= w.
Local Notation B := (B w).

Lemma B_pos : 0 < B.
Proof. unfold B. apply Z.pow_pos_nonneg; lia. Qed.

Lemma B_half : B = 2 * 2 ^ (w - 1).
Proof. unfold B. rewrite <- Z.pow_succ_r by lia. f_equal. lia. Qed.

Lemma B_ge4 : 4 <= B.
Proof. unfold B. change 4 with (2 ^ 2). apply Z.pow_le_mono_r; lia. Qed.

Lemma top_bit z : 0 <= z < B -> Z.shiftr z (w - 1) = if 2 ^ (w - 1) <=? z then 1 else 0.
Proof.
  intros H. rewrite B_half in H. rewrite Z.shiftr_div_pow2 by lia.
  assert (0 < 2 ^ (w - 1)) by (apply Z.pow_pos_nonneg; lia).
  destruct (Z.leb_spec (2 ^ (w - 1)) z).
  - symmetry. apply Z.div_unique with (r := z - 2 ^ (w - 1)); lia.
  - apply Z.div_small; lia.
Qed.

Lemma dsub_range x y : 0 <= dsub w x y < B.
Proof. apply Z.mod_pos_bound, B_pos. Qed.

Lemma dadd_range x y : 0 <= dadd w x y < B.
Proof. apply Z.mod_pos_bound, B_pos. Qed.

Lemma bit_small b : 0 <= b <= 1 -> b mod 2 ^ 32 = b.
Proof. intros; apply Z.mod_small. change (2 ^ 32) with 4294967296. lia. Qed.

Lemma is_digit_nonzero_ct_spec x : 0 <= x < B -> is_digit_nonzero_ct w x = if x =? 0 then 0 else 1.
Proof.
  intros H. unfold is_digit_nonzero_ct. rewrite Z.shiftr_lor.
  rewrite !top_bit by (auto using dsub_range).
  assert (D : dsub w 0 x = if x =? 0 then 0 else B - x).
  { unfold dsub. rewrite mod_neg by lia.
    destruct (Z.ltb_spec (0 - x) 0), (Z.eqb_spec x 0); lia. }
  rewrite D. pose proof B_half. destruct (Z.eqb_spec x 0) as [->|N].
  - destruct (Z.leb_spec (2 ^ (w - 1)) 0) as [L|L]; [|reflexivity].
    exfalso. assert (0 < 2 ^ (w - 1)) by (apply Z.pow_pos_nonneg; lia). lia.
  - destruct (Z.leb_spec (2 ^ (w - 1)) x); destruct (Z.leb_spec (2 ^ (w - 1)) (B - x)); try reflexivity; lia.
Qed.

Lemma is_digit_zero_ct_spec x : 0 <= x < B -> is_digit_zero_ct w x = if x =? 0 then 1 else 0.
Proof.
  intros H. unfold is_digit_zero_ct. rewrite is_digit_nonzero_ct_spec by auto.
  destruct (x =? 0); reflexivity.
Qed.

Lemma is_digit_lessthan_ct_spec x y :
  0 <= x < B -> 0 <= y < B -> is_digit_lessthan_ct w x y = if x <? y then 1 else 0.
Proof.
  intros Hx Hy. unfold is_digit_lessthan_ct.
  rewrite Z.shiftr_lxor, Z.shiftr_lor, !Z.shiftr_lxor.
  rewrite !top_bit by (auto using dsub_range).
  assert (D : dsub w x y = if x <? y then x - y + B else x - y).
  { unfold dsub. rewrite mod_neg by lia.
    destruct (Z.ltb_spec (x - y) 0), (Z.ltb_spec x y); lia. }
  rewrite D. pose proof B_half.
  destruct (Z.ltb_spec x y);
    destruct (Z.leb_spec (2 ^ (w - 1)) x); destruct (Z.leb_spec (2 ^ (w - 1)) y);
    match goal with |- context [Z.leb ?a ?b] => destruct (Z.leb_spec a b) end;
    try reflexivity; lia.
Qed.

Lemma ADDC_spec c x y :
  0 <= c <= 1 -> 0 <= x < B -> 0 <= y < B ->
  ADDC w c x y = ((x + y + c) / B, (x + y + c) mod B).
Proof.
  intros Hc Hx Hy. unfold ADDC. pose proof B_pos as HB. pose proof B_ge4.
  rewrite !is_digit_lessthan_ct_spec by (auto using dadd_range; lia).
  assert (T : dadd w x c = if x + c <? B then x + c else x + c - B) by (apply mod_once; lia).
  assert (S : dadd w y (dadd w x c) = (x + y + c) mod B).
  { unfold dadd. rewrite Zplus_mod_idemp_r. f_equal. lia. }
  rewrite S. f_equal. rewrite T.
  assert (M : (x + y + c) mod B = if x + y + c <? B then x + y + c else x + y + c - B) by (apply mod_once; lia).
  rewrite M.
  assert (Q : (x + y + c) / B = if x + y + c <? B then 0 else 1).
  { destruct (Z.ltb_spec (x + y + c) B).
    - apply Z.div_small; lia.
    - symmetry. apply Z.div_unique with (r := x + y + c - B); lia. }
  rewrite Q.
  destruct (Z.ltb_spec (x + y + c) B); destruct (Z.ltb_spec (x + c) B);
    match goal with |- context [Z.lor (if ?a <? ?b then _ else _) (if ?u <? ?v then _ else _)] =>
      destruct (Z.ltb_spec a b); destruct (Z.ltb_spec u v) end; try reflexivity; lia.
Qed.

Lemma SUBC_spec b x y :
  0 <= b <= 1 -> 0 <= x < B -> 0 <= y < B ->
  SUBC w b x y = ((if x - y - b <? 0 then 1 else 0), (x - y - b) mod B).
Proof.
  intros Hb Hx Hy. unfold SUBC. pose proof B_pos as HB. pose proof B_ge4.
  rewrite is_digit_lessthan_ct_spec by auto.
  rewrite is_digit_zero_ct_spec by (apply dsub_range).
  f_equal.
  - assert (D : dsub w x y = if x <? y then x - y + B else x - y).
    { unfold dsub. rewrite mod_neg by lia.
      destruct (Z.ltb_spec (x - y) 0), (Z.ltb_spec x y); lia. }
    rewrite D.
    assert (b = 0 \/ b = 1) as [->| ->] by lia.
    + destruct (Z.ltb_spec x y); destruct (Z.ltb_spec (x - y - 0) 0);
        match goal with |- context [if ?u =? ?v then _ else _] => destruct (Z.eqb_spec u v) end;
        try reflexivity; lia.
    + destruct (Z.ltb_spec x y); destruct (Z.ltb_spec (x - y - 1) 0);
        match goal with |- context [if ?u =? ?v then _ else _] => destruct (Z.eqb_spec u v) end;
        try reflexivity; lia.
  - unfold dsub. rewrite Zminus_mod_idemp_l. reflexivity.
Qed.

Lemma addc_loop_spec c a b :
  0 <= c <= 1 -> digits B a -> digits B b -> length a = length b ->
  let '(co, r) := addc_loop w c a b in
  length r = length a /\ digits B r /\ 0 <= co <= 1 /\
  valB B a + valB B b + c = valB B r + B ^ Z.of_nat (length a) * co.
Proof.
  pose proof B_pos as HB. pose proof B_ge4 as HB4.
  revert c b; induction a as [|x a IH]; intros c b Hc Ha Hb HL; destruct b as [|y b]; cbn [length] in HL; try lia.
  - cbn [addc_loop length valB]. change (Z.of_nat 0) with 0. rewrite Z.pow_0_r.
    repeat split; auto; lia.
  - apply digits_cons in Ha as [Hx Ha]. apply digits_cons in Hb as [Hy Hb].
    cbn [addc_loop]. rewrite ADDC_spec by auto.
    set (c1 := (x + y + c) / B).
    assert (Hc1 : 0 <= c1 <= 1).
    { unfold c1. split; [apply Z.div_pos; lia|]. apply Z.lt_succ_r. apply Z.div_lt_upper_bound; lia. }
    specialize (IH c1 b Hc1 Ha Hb ltac:(lia)).
    destruct (addc_loop w c1 a b) as [co r]. destruct IH as (L & D & C & V).
    cbn [length valB]. split; [lia|]. split.
    + apply digits_cons; split; auto. apply Z.mod_pos_bound; auto.
    + split; auto. rewrite Nat2Z.inj_succ, Z.pow_succ_r by lia.
      assert (E : x + y + c = B * c1 + (x + y + c) mod B) by (apply Z.div_mod; lia).
      nia.
Qed.

Lemma subc_loop_spec c a b :
  0 <= c <= 1 -> digits B a -> digits B b -> length a = length b ->
  let '(co, r) := subc_loop w c a b in
  length r = length a /\ digits B r /\ 0 <= co <= 1 /\
  valB B a - valB B b - c = valB B r - B ^ Z.of_nat (length a) * co.
Proof.
  pose proof B_pos as HB. pose proof B_ge4 as HB4.
  revert c b; induction a as [|x a IH]; intros c b Hc Ha Hb HL; destruct b as [|y b]; cbn [length] in HL; try lia.
  - cbn [subc_loop length valB]. change (Z.of_nat 0) with 0. rewrite Z.pow_0_r.
    repeat split; auto; lia.
  - apply digits_cons in Ha as [Hx Ha]. apply digits_cons in Hb as [Hy Hb].
    cbn [subc_loop]. rewrite SUBC_spec by auto.
    set (c1 := if x - y - c <? 0 then 1 else 0).
    assert (Hc1 : 0 <= c1 <= 1) by (unfold c1; destruct (_ <? _); lia).
    specialize (IH c1 b Hc1 Ha Hb ltac:(lia)).
    destruct (subc_loop w c1 a b) as [co r]. destruct IH as (L & D & C & V).
    cbn [length valB]. split; [lia|]. split.
    + apply digits_cons; split; auto. apply Z.mod_pos_bound; auto.
    + split; auto. rewrite Nat2Z.inj_succ, Z.pow_succ_r by lia.
      assert (E : (x - y - c) mod B = x - y - c + B * c1).
      { rewrite mod_neg by lia. unfold c1. destruct (Z.ltb_spec (x - y - c) 0); lia. }
      rewrite E. nia.
Qed.

Lemma mp_add_spec a b :
  digits B a -> digits B b -> length a = length b ->
  mp_add w a b = ((valB B a + valB B b) / B ^ Z.of_nat (length a),
                  toB B (length a) (valB B a + valB B b)).
Proof.
  intros Ha Hb HL. pose proof B_pos as HB. pose proof (addc_loop_spec 0 a b ltac:(lia) Ha Hb HL) as H.
  unfold mp_add. destruct (addc_loop w 0 a b) as [co r]. destruct H as (L & D & C & V).
  pose proof (valB_bound B r HB D) as R. rewrite L in R.
  f_equal.
  - apply Z.div_unique with (r := valB B r); lia.
  - apply valB_inj with (B := B); auto using toB_digits.
    + now rewrite toB_length.
    + rewrite valB_toB by auto. apply Z.mod_unique with (q := co); lia.
Qed.

Lemma mp_sub_spec a b :
  digits B a -> digits B b -> length a = length b ->
  mp_sub w a b = ((if valB B a <? valB B b then 1 else 0),
                  toB B (length a) (valB B a - valB B b)).
Proof.
  intros Ha Hb HL. pose proof B_pos as HB. pose proof (subc_loop_spec 0 a b ltac:(lia) Ha Hb HL) as H.
  unfold mp_sub. destruct (subc_loop w 0 a b) as [co r]. destruct H as (L & D & C & V).
  pose proof (valB_bound B r HB D) as R. rewrite L in R.
  pose proof (valB_bound B a HB Ha) as RA.
  pose proof (valB_bound B b HB Hb) as RB. rewrite <- HL in RB.
  f_equal.
  - destruct (Z.ltb_spec (valB B a) (valB B b)); assert (co = 0 \/ co = 1) as [->| ->] by lia; lia.
  - apply valB_inj with (B := B); auto using toB_digits.
    + now rewrite toB_length.
    + rewrite valB_toB by auto. apply Z.mod_unique with (q := - co); lia.
Qed.

(** ** Shifts by one *)
Lemma disjoint_lxor a b n : 0 <= n -> 0 <= a < 2 ^ n -> Z.lxor a (b * 2 ^ n) = a + b * 2 ^ n.
Proof.
  intros Hn Ha. symmetry. apply Z.add_nocarry_lxor.
  apply Z.bits_inj'. intros i Hi. rewrite Z.land_spec, Z.bits_0.
  destruct (Z.lt_ge_cases i n) as [L|L].
  - rewrite Z.mul_pow2_bits_low by lia. apply andb_false_r.
  - assert (E : a = a mod 2 ^ n) by (rewrite Z.mod_small; lia).
    rewrite E, Z.mod_pow2_bits_high by lia. reflexivity.
Qed.

Lemma SHIFTR_spec hi lo s :
  0 < s < w -> 0 <= lo < B -> SHIFTR w hi lo s = (lo + B * hi) / 2 ^ s mod B.
Proof.
  intros Hs Hlo. pose proof B_pos as HB. unfold SHIFTR, dshl.
  rewrite Z.shiftl_mul_pow2, Z.shiftr_div_pow2 by lia.
  assert (EB : B = 2 ^ (w - s) * 2 ^ s) by (unfold B; rewrite <- Z.pow_add_r by lia; f_equal; lia).
  assert (Ps : 0 < 2 ^ s) by (apply Z.pow_pos_nonneg; lia).
  assert (Pw : 0 < 2 ^ (w - s)) by (apply Z.pow_pos_nonneg; lia).
  assert (E1 : (hi * 2 ^ (w - s)) mod B = (hi mod 2 ^ s) * 2 ^ (w - s)).
  { rewrite EB. rewrite (Z.mul_comm (2 ^ (w - s)) (2 ^ s)). rewrite Z.mul_mod_distr_r by lia. reflexivity. }
  rewrite E1. rewrite disjoint_lxor.
  - assert (E2 : (lo + B * hi) / 2 ^ s = lo / 2 ^ s + 2 ^ (w - s) * hi).
    { rewrite EB. replace (lo + 2 ^ (w - s) * 2 ^ s * hi) with (lo + (2 ^ (w - s) * hi) * 2 ^ s) by ring.
      apply Z.div_add. lia. }
    rewrite E2.
    rewrite (Z.div_mod hi (2 ^ s)) at 2 by lia.
    replace (lo / 2 ^ s + 2 ^ (w - s) * (2 ^ s * (hi / 2 ^ s) + hi mod 2 ^ s))
      with ((lo / 2 ^ s + hi mod 2 ^ s * 2 ^ (w - s)) + (hi / 2 ^ s) * B) by (rewrite EB; ring).
    rewrite Z.mod_add by lia. symmetry. apply Z.mod_small.
    assert (0 <= lo / 2 ^ s < 2 ^ (w - s)).
    { split; [apply Z.div_pos; lia | apply Z.div_lt_upper_bound; lia]. }
    pose proof (Z.mod_pos_bound hi (2 ^ s) Ps). rewrite EB. nia.
  - lia.
  - split; [apply Z.div_pos; lia | apply Z.div_lt_upper_bound; lia].
Qed.

Lemma mp_shiftr1_spec x :
  digits B x -> length (mp_shiftr1 w x) = length x /\ digits B (mp_shiftr1 w x) /\
  valB B (mp_shiftr1 w x) = valB B x / 2.
Proof.
  pose proof B_pos as HB. pose proof B_half as HBh.
  assert (Ph : 0 < 2 ^ (w - 1)) by (apply Z.pow_pos_nonneg; lia).
  induction x as [|d x IH]; intros H; [repeat split; auto|].
  apply digits_cons in H as [Hd Hx]. specialize (IH Hx). destruct IH as (L & D & V).
  destruct x as [|e x].
  - cbn [mp_shiftr1 length valB]. rewrite Z.shiftr_div_pow2 by lia. change (2 ^ 1) with 2.
    repeat split; auto.
    + apply digits_cons; split; [|constructor]. split; [apply Z.div_pos; lia | apply Z.div_lt_upper_bound; lia].
    + rewrite !Z.mul_0_r, !Z.add_0_r. reflexivity.
  - change (mp_shiftr1 w (d :: e :: x)) with (SHIFTR w e d 1 :: mp_shiftr1 w (e :: x)).
    pose proof Hx as Hx'. apply digits_cons in Hx' as [He Hx'].
    rewrite SHIFTR_spec by (auto; lia). change (2 ^ 1) with 2.
    split; [cbn [length]; rewrite L; reflexivity|]. split.
    + apply digits_cons; split; auto. apply Z.mod_pos_bound; auto.
    + cbn [valB] in V |- *. rewrite V. set (R := valB B x) in *.
      set (h := 2 ^ (w - 1)) in *. rewrite HBh.
      assert (Q : (d + 2 * h * e) / 2 = d / 2 + h * e).
      { replace (d + 2 * h * e) with (d + h * e * 2) by ring. apply Z.div_add; lia. }
      rewrite Q.
      assert (Q2 : (d + 2 * h * (e + 2 * h * R)) / 2 = d / 2 + h * (e + 2 * h * R)).
      { replace (d + 2 * h * (e + 2 * h * R)) with (d + h * (e + 2 * h * R) * 2) by ring. apply Z.div_add; lia. }
      rewrite Q2.
      assert (Q3 : (e + 2 * h * R) / 2 = e / 2 + h * R).
      { replace (e + 2 * h * R) with (e + h * R * 2) by ring. apply Z.div_add; lia. }
      rewrite Q3.
      assert (Hd2 : 0 <= d / 2 < h) by (split; [apply Z.div_pos; lia | apply Z.div_lt_upper_bound; lia]).
      pose proof (Z.div_mod e 2 ltac:(lia)) as Ee. pose proof (Z.mod_pos_bound e 2 ltac:(lia)) as Me.
      assert (M : (d / 2 + h * e) mod (2 * h) = d / 2 + h * (e mod 2)).
      { symmetry. apply Z.mod_unique with (q := e / 2); [left; nia|]. nia. }
      rewrite M. nia.
Qed.

Lemma SHIFTL_spec hi lo s :
  0 < s < w -> 0 <= lo < B -> SHIFTL w hi lo s = (hi * 2 ^ s + lo / 2 ^ (w - s)) mod B.
Proof.
  intros Hs Hlo. pose proof B_pos as HB. unfold SHIFTL, dshl.
  rewrite Z.shiftl_mul_pow2, Z.shiftr_div_pow2 by lia.
  assert (EB : B = 2 ^ (w - s) * 2 ^ s) by (unfold B; rewrite <- Z.pow_add_r by lia; f_equal; lia).
  assert (Ps : 0 < 2 ^ s) by (apply Z.pow_pos_nonneg; lia).
  assert (Pw : 0 < 2 ^ (w - s)) by (apply Z.pow_pos_nonneg; lia).
  assert (E1 : (hi * 2 ^ s) mod B = (hi mod 2 ^ (w - s)) * 2 ^ s).
  { rewrite EB. rewrite Z.mul_mod_distr_r by lia. reflexivity. }
  assert (L : 0 <= lo / 2 ^ (w - s) < 2 ^ s).
  { split; [apply Z.div_pos; lia | apply Z.div_lt_upper_bound; lia]. }
  rewrite E1, Z.lxor_comm, disjoint_lxor by lia.
  rewrite (Z.div_mod hi (2 ^ (w - s))) at 2 by lia.
  replace ((2 ^ (w - s) * (hi / 2 ^ (w - s)) + hi mod 2 ^ (w - s)) * 2 ^ s + lo / 2 ^ (w - s))
    with ((lo / 2 ^ (w - s) + hi mod 2 ^ (w - s) * 2 ^ s) + (hi / 2 ^ (w - s)) * B) by (rewrite EB; ring).
  rewrite Z.mod_add by lia. symmetry. apply Z.mod_small.
  pose proof (Z.mod_pos_bound hi (2 ^ (w - s)) Pw). rewrite EB. nia.
Qed.

Lemma mp_shiftl1_from_spec x : forall low,
  (match low with None => True | Some l => 0 <= l < B end) -> digits B x ->
  let lb := match low with None => 0 | Some l => l / 2 ^ (w - 1) end in
  length (mp_shiftl1_from w low x) = length x /\ digits B (mp_shiftl1_from w low x) /\
  valB B (mp_shiftl1_from w low x) = (2 * valB B x + lb) mod B ^ Z.of_nat (length x).
Proof.
  pose proof B_pos as HB. pose proof B_half as HBh.
  assert (Ph : 0 < 2 ^ (w - 1)) by (apply Z.pow_pos_nonneg; lia).
  induction x as [|d x IH]; intros low Hl H lb.
  - cbn [mp_shiftl1_from length valB]. change (Z.of_nat 0) with 0. rewrite Z.pow_0_r, Z.mod_1_r.
    repeat split; auto.
  - apply digits_cons in H as [Hd Hx]. specialize (IH (Some d) Hd Hx). destruct IH as (L & D & V).
    cbn [mp_shiftl1_from].
    assert (E : match low with None => dshl w d 1 | Some l => SHIFTL w d l 1 end = (d * 2 + lb) mod B).
    { destruct low as [l|]; unfold lb.
      - rewrite SHIFTL_spec by (auto; lia). reflexivity.
      - unfold dshl. rewrite Z.shiftl_mul_pow2 by lia. change (2 ^ 1) with 2. f_equal. lia. }
    rewrite E.
    assert (Hlb : 0 <= lb <= 1).
    { unfold lb. destruct low as [l|]; [|lia]. split; [apply Z.div_pos; lia|].
      apply Z.lt_succ_r. apply Z.div_lt_upper_bound; lia. }
    split; [cbn [length]; rewrite L; reflexivity|]. split.
    + apply digits_cons; split; auto. apply Z.mod_pos_bound; auto.
    + cbn [length valB]. rewrite V, Nat2Z.inj_succ, Z.pow_succ_r by lia.
      assert (PB : 0 < B ^ Z.of_nat (length x)) by (apply Z.pow_pos_nonneg; lia).
      rewrite Z.rem_mul_r by lia. f_equal.
      * rewrite <- (Z.mod_add (d * 2 + lb) (2 * valB B x)) by lia. f_equal. ring.
      * f_equal. f_equal.
        replace (2 * (d + B * valB B x) + lb) with ((2 * d + lb) + (2 * valB B x) * B) by ring.
        rewrite Z.div_add by lia.
        assert (Q : (2 * d + lb) / B = d / 2 ^ (w - 1)).
        { set (h := 2 ^ (w - 1)) in *. rewrite HBh.
          symmetry. apply Z.div_unique with (r := 2 * (d mod h) + lb).
          - left. pose proof (Z.mod_pos_bound d h Ph). nia.
          - pose proof (Z.div_mod d h ltac:(lia)). nia. }
        rewrite Q. lia.
Qed.

Lemma mp_shiftl1_spec x : digits B x ->
  mp_shiftl1 w x = toB B (length x) (2 * valB B x).
Proof.
  intros H. pose proof B_pos as HB. destruct (mp_shiftl1_from_spec x None I H) as (L & D & V).
  apply valB_inj with (B := B); auto using toB_digits.
  - rewrite toB_length. exact L.
  - unfold mp_shiftl1. rewrite V, valB_toB by auto. f_equal. lia.
Qed.

End P.

(** ** Digit multiplication *)
Section Mul.
Variable h : Z.
Hypothesis Hh : 2 <= h.
Local Notation w := (2 * h).
Local Notation B := (Digits.B w).
Local Notation H2 := (2 ^ h).

Lemma BH : B = H2 * H2.
Proof. unfold Digits.B. rewrite <- Z.pow_add_r by lia. f_equal. lia. Qed.

Lemma H2_ge : 4 <= H2.
Proof. change 4 with (2 ^ 2). apply Z.pow_le_mono_r; lia. Qed.

Lemma mask_low_eq : Z.shiftr (B - 1) h = Z.ones h.
Proof.
  rewrite Z.shiftr_div_pow2, Z.ones_equiv by lia. rewrite BH. pose proof H2_ge.
  symmetry. apply Z.div_unique with (r := H2 - 1); [left; lia|]. unfold Z.pred. nia.
Qed.

Lemma mask_high_eq : dshl w (B - 1) h = Z.shiftl (Z.ones h) h.
Proof.
  unfold dshl. rewrite !Z.shiftl_mul_pow2, Z.ones_equiv by lia. rewrite BH. pose proof H2_ge.
  symmetry. apply Z.mod_unique with (q := H2 - 1); [left; unfold Z.pred; nia|]. unfold Z.pred. nia.
Qed.

Lemma land_low x : Z.land x (Z.ones h) = x mod H2.
Proof. apply Z.land_ones; lia. Qed.

Lemma land_high x : 0 <= x < B -> Z.land x (Z.shiftl (Z.ones h) h) = x / H2 * H2.
Proof.
  intros Hx. pose proof H2_ge.
  rewrite <- Z.shiftl_mul_pow2 by lia. rewrite <- Z.shiftr_div_pow2 by lia.
  apply Z.bits_inj'. intros i Hi. rewrite Z.land_spec, !Z.shiftl_spec by lia.
  destruct (Z.lt_ge_cases i h) as [L|L].
  - rewrite (Z.testbit_neg_r _ (i - h)) by lia. rewrite (Z.testbit_neg_r (Z.shiftr x h)) by lia. apply andb_false_r.
  - rewrite Z.shiftr_spec by lia. replace (i - h + h) with i by lia.
    destruct (Z.lt_ge_cases i w) as [L2|L2].
    + rewrite Z.ones_spec_low by lia. apply andb_true_r.
    + rewrite Z.ones_spec_high by lia. rewrite andb_false_r.
      assert (E : x = x mod 2 ^ w) by (rewrite Z.mod_small; [reflexivity | exact Hx]).
      rewrite E, Z.mod_pow2_bits_high by lia. reflexivity.
Qed.

Lemma mul_bound X x y : 0 <= x < X -> 0 <= y < X -> 0 <= x * y <= (X - 1) * (X - 1).
Proof. intros. split; [nia|]. apply Z.mul_le_mono_nonneg; lia. Qed.

Lemma div_bound X x : 4 <= X -> 0 <= x <= (X - 1) * (X - 1) -> 0 <= x / X < X.
Proof. intros HX Hx. split; [apply Z.div_pos; lia | apply Z.div_lt_upper_bound; lia]. Qed.

Lemma digit_x_digit_spec a b : 0 <= a < B -> 0 <= b < B ->
  let '(c0, c1) := digit_x_digit w a b in
  0 <= c0 < B /\ 0 <= c1 < B /\ c0 + B * c1 = a * b.
Proof.
  intros Ha Hb. unfold digit_x_digit.
  assert (Eh : w / 2 = h) by (rewrite Z.mul_comm; apply Z.div_mul; lia).
  rewrite Eh, mask_low_eq, mask_high_eq, !land_low, !Z.shiftr_div_pow2 by lia.
  pose proof H2_ge as HH. pose proof BH as HB.
  pose proof (Z.div_mod a H2 ltac:(lia)) as Ea. pose proof (Z.mod_pos_bound a H2 ltac:(lia)) as Ma.
  pose proof (Z.div_mod b H2 ltac:(lia)) as Eb. pose proof (Z.mod_pos_bound b H2 ltac:(lia)) as Mb.
  assert (Da : 0 <= a / H2 < H2) by (split; [apply Z.div_pos; lia | apply Z.div_lt_upper_bound; lia]).
  assert (Db : 0 <= b / H2 < H2) by (split; [apply Z.div_pos; lia | apply Z.div_lt_upper_bound; lia]).
  set (al := a mod H2) in *. set (ah := a / H2) in *.
  set (bl := b mod H2) in *. set (bh := b / H2) in *.
  pose proof (mul_bound H2 al bl Ma Mb) as P1.
  pose proof (mul_bound H2 al bh Ma Db) as P2.
  pose proof (mul_bound H2 ah bl Da Mb) as P3.
  pose proof (mul_bound H2 ah bh Da Db) as P4.
  set (X := H2) in *.
  assert (PB : (X - 1) * (X - 1) < B) by lia.
  assert (DX : forall u v, 0 <= u < X -> Z.lxor u (v * X) = u + v * X).
  { intros u v Hu. apply disjoint_lxor; [clear - Hh; lia | exact Hu]. }
  unfold dmul.
  rewrite !(Z.mod_small (_ * _) B) by lia.
  (* split the four partial products *)
  assert (X0 : X <> 0) by lia. assert (Xp : 0 < X) by lia.
  pose proof (Z.div_mod (al * bl) X X0) as Q1. pose proof (Z.mod_pos_bound (al * bl) X Xp) as R1.
  pose proof (Z.div_mod (al * bh) X X0) as Q2. pose proof (Z.mod_pos_bound (al * bh) X Xp) as R2.
  pose proof (Z.div_mod (ah * bl) X X0) as Q3. pose proof (Z.mod_pos_bound (ah * bl) X Xp) as R3.
  pose proof (Z.div_mod (ah * bh) X X0) as Q4. pose proof (Z.mod_pos_bound (ah * bh) X Xp) as R4.
  pose proof (div_bound X (al * bl) HH P1) as D1.
  pose proof (div_bound X (al * bh) HH P2) as D2.
  pose proof (div_bound X (ah * bl) HH P3) as D3.
  pose proof (div_bound X (ah * bh) HH P4) as D4.
  assert (P4' : 0 <= ah * bh < B) by (clear - P4 PB; lia).
  rewrite !(land_high (ah * bh)) by exact P4'. fold X.
  assert (XX : 4 * X <= B) by (rewrite HB; apply Z.mul_le_mono_nonneg_r; clear - HH; lia).
  assert (AB : a * b < B * B) by (apply Z.mul_lt_mono_nonneg; clear - Ha Hb; lia).
  assert (AE : a * b = X * X * (ah * bh) + X * (ah * bl) + X * (al * bh) + al * bl).
  { rewrite Ea, Eb. ring. }
  set (q1 := al * bl / X) in *. set (r1 := (al * bl) mod X) in *.
  set (q2 := al * bh / X) in *. set (r2 := (al * bh) mod X) in *.
  set (q3 := ah * bl / X) in *. set (r3 := (ah * bl) mod X) in *.
  set (q4 := ah * bh / X) in *. set (r4 := (ah * bh) mod X) in *.
  rewrite Q1, Q2, Q3, Q4 in AE. rewrite AE in AB |- *.
  clear Q1 Q2 Q3 Q4 AE P1 P2 P3 P4 P4' Ea Eb Ma Mb Da Db Ha Hb Eh.
  clearbody q1 q2 q3 q4 r1 r2 r3 r4.
  assert (T1 : dadd w (dadd w q1 r3) r2 = q1 + r3 + r2).
  { unfold dadd. rewrite Zplus_mod_idemp_l. apply Z.mod_small. clear - D1 R3 R2 XX HH; lia. }
  rewrite T1.
  pose proof (Z.div_mod (q1 + r3 + r2) X X0) as QT. pose proof (Z.mod_pos_bound (q1 + r3 + r2) X Xp) as RT.
  assert (DT : 0 <= (q1 + r3 + r2) / X <= 2).
  { split; [apply Z.div_pos; clear - D1 R3 R2 HH; lia|]. apply Z.lt_succ_r.
    apply Z.div_lt_upper_bound; clear - D1 R3 R2 HH; lia. }
  assert (SH : dshl w (q1 + r3 + r2) h = ((q1 + r3 + r2) mod X) * X).
  { unfold dshl. rewrite Z.shiftl_mul_pow2 by lia. fold X. rewrite HB, Z.mul_mod_distr_r by assumption. reflexivity. }
  rewrite SH.
  set (k := (q1 + r3 + r2) / X) in *. set (t1r := (q1 + r3 + r2) mod X) in *.
  assert (T2 : dadd w (dadd w (dadd w q3 q2) r4) k = q3 + q2 + r4 + k).
  { unfold dadd. rewrite (Z.mod_small (q3 + q2)) by (clear - D3 D2 XX HH; lia).
    rewrite (Z.mod_small (q3 + q2 + r4)) by (clear - D3 D2 R4 XX HH; lia).
    apply Z.mod_small. clear - D3 D2 R4 DT XX HH; lia. }
  rewrite T2.
  assert (T2b : 0 <= q3 + q2 + r4 + k < B) by (clear - D3 D2 R4 DT XX HH; lia).
  rewrite land_high by assumption. fold X.
  pose proof (Z.div_mod (q3 + q2 + r4 + k) X X0) as QU.
  pose proof (Z.mod_pos_bound (q3 + q2 + r4 + k) X Xp) as RU.
  assert (K2 : 0 <= (q3 + q2 + r4 + k) / X) by (apply Z.div_pos; clear - D3 D2 R4 DT Xp; lia).
  set (k2 := (q3 + q2 + r4 + k) / X) in *. set (t2r := (q3 + q2 + r4 + k) mod X) in *.
  clearbody k k2 t1r t2r.
  rewrite (DX r1 t1r R1).
  assert (PROD : r1 + t1r * X + B * (t2r + (q4 + k2) * X)
     = X * X * (X * q4 + r4) + X * (X * q3 + r3) + X * (X * q2 + r2) + (X * q1 + r1)).
  { rewrite HB.
    replace t2r with (q3 + q2 + r4 + k - X * k2) by (clear - QU; lia).
    replace t1r with (q1 + r3 + r2 - X * k) by (clear - QT; lia).
    ring. }
  rewrite <- PROD in AB |- *.
  assert (N4 : 0 <= t1r * X) by (apply Z.mul_nonneg_nonneg; clear - RT Xp; lia).
  assert (K : q4 + k2 < X).
  { assert (L1 : B * (t2r + (q4 + k2) * X) < B * B) by (clear - AB N4 R1; lia).
    apply Z.mul_lt_mono_pos_l in L1; [|clear - XX HH; lia].
    rewrite HB in L1. apply Z.mul_lt_mono_pos_r with (p := X); [exact Xp|]. clear - L1 RU; lia. }
  assert (N2 : 0 <= q4 * X) by (apply Z.mul_nonneg_nonneg; clear - D4 Xp; lia).
  assert (N3 : 0 <= k2 * X) by (apply Z.mul_nonneg_nonneg; clear - K2 Xp; lia).
  assert (L3 : (q4 + k2) * X <= (X - 1) * X) by (apply Z.mul_le_mono_nonneg_r; clear - K Xp; lia).
  assert (AD : dadd w (q4 * X) (k2 * X) = (q4 + k2) * X).
  { unfold dadd. rewrite Z.mod_small; [ring|]. rewrite HB. clear - N2 N3 L3 Xp; lia. }
  rewrite AD, (DX t2r _ RU).
  assert (L4 : t1r * X <= (X - 1) * X) by (apply Z.mul_le_mono_nonneg_r; clear - RT Xp; lia).
  rewrite HB. split; [clear - R1 N4 L4 Xp; lia|]. split; [clear - RU N2 N3 L3 Xp; lia|]. reflexivity.
Qed.

End Mul.
