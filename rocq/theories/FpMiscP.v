(** Proofs about FpMisc.v: byte (de)serialisation, comparisons, selection, shifts. *)
From Coq Require Import Znumtheory Field.
From Verif Require Import Base BaseP Digits DigitsP CombaP Params Fp Wf FpP Fld FpRep FpMisc.
Set Bullet Behavior "Strict Subproofs".

(** ** Bytes of digits *)
Lemma digit_bytes_pow w : 0 < w -> w mod 8 = 0 -> 256 ^ Z.of_nat (digit_bytes w) = 2 ^ w.
Proof.
  intros Hw H8. unfold digit_bytes. rewrite Z2Nat.id by (apply Z.div_pos; lia).
  change 256 with (2 ^ 8). rewrite <- Z.pow_mul_r by (try apply Z.div_pos; lia). f_equal.
  pose proof (Z.div_mod w 8 ltac:(lia)). lia.
Qed.
Section W.
Variable w : Z.
Hypothesis Hw : 2 <= w.
Hypothesis H8 : w mod 8 = 0.
Local Notation B := (2 ^ w).
Local Notation db := (digit_bytes w).
Lemma DB : 256 ^ Z.of_nat db = B. Proof. apply digit_bytes_pow; auto; lia. Qed.

Lemma bytes_of_digits_spec x : digits B x ->
  bytes_of_digits w x = toB 256 (length x * db) (valB B x).
Proof.
  pose proof DB as HDB. unfold bytes_of_digits. induction x as [|d x IH]; intros H; [reflexivity|].
  apply digits_cons in H as [Hd Hx]. cbn [flat_map length valB Nat.mul].
  rewrite IH by auto. clear IH.
  apply valB_inj with (B := 256); try lia.
  - apply digits_app; split; apply toB_digits; lia.
  - apply toB_digits; lia.
  - rewrite app_length, !toB_length. lia.
  - rewrite valB_app, toB_length, !valB_toB by lia. rewrite HDB.
    rewrite Z.mod_small by lia.
    rewrite Nat2Z.inj_add, Z.pow_add_r, HDB by lia.
    assert (0 < 256 ^ Z.of_nat (length x * db)) by (apply Z.pow_pos_nonneg; lia).
    rewrite Z.rem_mul_r by lia.
    replace (d + B * valB B x) with (d + valB B x * B) by ring.
    rewrite Z.mod_add, Z.div_add by lia. rewrite (Z.mod_small d), (Z.div_small d), Z.add_0_l by lia. reflexivity.
Qed.

Lemma digits_of_bytes_spec n : forall b, digits 256 b -> length b = (n * db)%nat ->
  length (digits_of_bytes w n b) = n /\ digits B (digits_of_bytes w n b) /\
  valB B (digits_of_bytes w n b) = valB 256 b.
Proof.
  pose proof DB as HDB. induction n as [|n IH]; intros b Hb L; cbn [digits_of_bytes].
  - destruct b; [|cbn in L; lia]. repeat split; constructor.
  - cbn [Nat.mul] in L.
    destruct (IH (skipn db b)) as (L1 & D1 & V1).
    + now apply digits_skipn.
    + rewrite skipn_length. lia.
    + assert (LF : length (firstn db b) = db) by (rewrite firstn_length; lia).
      pose proof (valB_bound 256 (firstn db b) ltac:(lia) (digits_firstn _ _ _ Hb)) as BF.
      rewrite LF, HDB in BF.
      split; [cbn [length]; rewrite L1; reflexivity|]. split; [apply digits_cons; auto|].
      cbn [valB]. rewrite V1. rewrite <- (firstn_skipn db b) at 3.
      rewrite valB_app, LF, HDB. reflexivity.
Qed.
End W.

(** ** ct_compare, ct_cmov *)
Lemma lor_0 a b : Z.lor a b = 0 <-> a = 0 /\ b = 0.
Proof. apply Z.lor_eq_0_iff. Qed.

Lemma ct_fold l : forall r, fold_left (fun r '(x, y) => Z.lor r (Z.lxor x y)) l r = 0 <->
  r = 0 /\ Forall (fun '(x, y) => x = y) l.
Proof.
  induction l as [|[x y] l IH]; intros r; cbn [fold_left].
  - split; [auto|tauto].
  - rewrite IH, lor_0, Z.lxor_eq_0_iff. split.
    + intros [[H1 H2] H3]. auto.
    + intros [H1 H2]. inversion H2; subst. auto.
Qed.
Lemma ct_fold_range l : Forall (fun '(x, y) => 0 <= x < 256 /\ 0 <= y < 256) l ->
  forall r, 0 <= r < 256 -> 0 <= fold_left (fun r '(x, y) => Z.lor r (Z.lxor x y)) l r < 256.
Proof.
  induction l as [|[x y] l IH]; intros H r Hr; cbn [fold_left]; auto.
  inversion H; subst. apply IH; auto.
  assert (Hx : 0 <= Z.lxor x y < 2 ^ 8).
  { split; [apply Z.lxor_nonneg; lia|]. destruct (Z.eq_dec (Z.lxor x y) 0); [lia|].
    apply Z.log2_lt_pow2; [pose proof (Z.lxor_nonneg x y); lia|].
    pose proof (Z.log2_lxor x y ltac:(lia) ltac:(lia)) as L.
    assert (Z.log2 x < 8) by (destruct (Z.eq_dec x 0); [subst; cbn; lia|apply Z.log2_lt_pow2; lia]).
    assert (Z.log2 y < 8) by (destruct (Z.eq_dec y 0); [subst; cbn; lia|apply Z.log2_lt_pow2; lia]). lia. }
  split; [apply Z.lor_nonneg; lia|]. destruct (Z.eq_dec (Z.lor r (Z.lxor x y)) 0); [lia|].
  change 256 with (2 ^ 8). apply Z.log2_lt_pow2; [pose proof (Z.lor_nonneg r (Z.lxor x y)); lia|].
  rewrite Z.log2_lor by lia.
  assert (Z.log2 r < 8) by (destruct (Z.eq_dec r 0); [subst; cbn; lia|apply Z.log2_lt_pow2; lia]).
  assert (Z.log2 (Z.lxor x y) < 8) by (destruct (Z.eq_dec (Z.lxor x y) 0) as [->|]; [cbn; lia|apply Z.log2_lt_pow2; lia]).
  lia.
Qed.
Lemma combine_eq {A} (a b : list A) : length a = length b ->
  (Forall (fun '(x, y) => x = y) (combine a b) <-> a = b).
Proof.
  revert b; induction a as [|x a IH]; intros [|y b] L; cbn in L; try lia; cbn [combine].
  - split; auto.
  - split.
    + intros H. inversion H; subst. f_equal. apply IH; auto; lia.
    + intros H. inversion H; subst. constructor; auto. apply IH; auto.
Qed.
Lemma combine_range a b : digits 256 a -> digits 256 b ->
  Forall (fun '(x, y) => 0 <= x < 256 /\ 0 <= y < 256) (combine a b).
Proof.
  revert b; induction a as [|x a IH]; intros [|y b] Ha Hb; cbn [combine]; constructor;
    apply digits_cons in Ha as [? ?], Hb as [? ?]; auto.
Qed.
Lemma ct_compare_spec a b : digits 256 a -> digits 256 b -> length a = length b ->
  ct_compare a b = if list_eq_dec Z.eq_dec a b then 0 else -1.
Proof.
  intros Ha Hb L. unfold ct_compare.
  pose proof (ct_fold_range _ (combine_range a b Ha Hb) 0 ltac:(lia)) as R.
  pose proof (ct_fold (combine a b) 0) as F.
  set (r := fold_left _ _ 0) in *. rewrite Z.shiftr_div_pow2 by lia.
  destruct (list_eq_dec Z.eq_dec a b) as [E|N].
  - replace r with 0; [reflexivity|]. symmetry. apply F. split; auto. now apply combine_eq.
  - assert (r <> 0). { intros E. apply N. apply F in E as [_ E]. now apply combine_eq. }
    symmetry. apply Z.div_unique with (r := 2 ^ 31 - r); lia.
Qed.
Lemma ct_cmov_spec r a : digits 256 r -> digits 256 a -> length r = length a ->
  ct_cmov r a 0 = r /\ ct_cmov r a (-1) = a.
Proof.
  revert a; induction r as [|x r IH]; intros [|y a] Hr Ha L; cbn in L; try lia; [split; reflexivity|].
  apply digits_cons in Hr as [Hx Hr], Ha as [Hy Ha]. destruct (IH a Hr Ha ltac:(lia)) as [E1 E2].
  unfold ct_cmov in *. cbn [combine map]. rewrite E1, E2. split; f_equal.
  - rewrite Z.land_0_l, Z.lxor_0_r. apply Z.mod_small; lia.
  - rewrite Z.land_m1_l, <- Z.lxor_assoc, (Z.lxor_comm x y), Z.lxor_assoc, Z.lxor_nilpotent, Z.lxor_0_r.
    apply Z.mod_small; lia.
Qed.

Lemma swap_digits_spec w p q : 0 <= w -> digits (2 ^ w) p -> digits (2 ^ w) q -> length p = length q ->
  swap_digits 0 p q = (p, q) /\ swap_digits (2 ^ w - 1) p q = (q, p).
Proof.
  intros Hw. revert q; induction p as [|x p IH]; intros [|y q] Hp Hq L; cbn in L; try lia; [split; reflexivity|].
  apply digits_cons in Hp as [Hx Hp], Hq as [Hy Hq]. destruct (IH q Hp Hq ltac:(lia)) as [E1 E2].
  unfold swap_digits in *. cbn [combine map].
  pose proof (f_equal fst E1) as E1a. pose proof (f_equal snd E1) as E1b.
  pose proof (f_equal fst E2) as E2a. pose proof (f_equal snd E2) as E2b.
  cbn [fst snd] in E1a, E1b, E2a, E2b. rewrite E1a, E1b, E2a, E2b.
  assert (M : Z.land (2 ^ w - 1) (Z.lxor x y) = Z.lxor x y).
  { replace (2 ^ w - 1) with (Z.ones w) by (rewrite Z.ones_equiv; lia).
    rewrite Z.land_comm, Z.land_ones by lia.
    apply Z.mod_small. split; [apply Z.lxor_nonneg; lia|].
    destruct (Z.eq_dec (Z.lxor x y) 0) as [->|N]; [lia|].
    apply Z.log2_lt_pow2; [pose proof (Z.lxor_nonneg x y); lia|].
    pose proof (Z.log2_lxor x y ltac:(lia) ltac:(lia)) as Lx.
    assert (X : forall z, 0 <= z < 2 ^ w -> z <> 0 -> Z.log2 z < w) by (intros; apply Z.log2_lt_pow2; lia).
    destruct (Z.eq_dec x 0) as [->|Nx]; [rewrite Z.lxor_0_l; apply X; auto; rewrite Z.lxor_0_l in N; auto|].
    destruct (Z.eq_dec y 0) as [->|Ny]; [rewrite Z.lxor_0_r; apply X; auto|].
    pose proof (X x Hx Nx). pose proof (X y Hy Ny). lia. }
  rewrite M, Z.land_0_l, !Z.lxor_0_l. split; [reflexivity|]. f_equal; f_equal.
  - rewrite (Z.lxor_comm x y), Z.lxor_assoc, Z.lxor_nilpotent. apply Z.lxor_0_r.
  - rewrite Z.lxor_assoc, Z.lxor_nilpotent. apply Z.lxor_0_r.
Qed.

(** ** mp_shiftleft *)
Section Shl.
Variable w : Z.
Hypothesis Hw : 2 <= w.
Local Notation B := (2 ^ w).
Lemma shl_from_spec s x : 0 < s < w -> forall low,
  (match low with None => True | Some l => 0 <= l < B end) -> digits B x ->
  let lb := match low with None => 0 | Some l => l / 2 ^ (w - s) end in
  length (shl_from w s low x) = length x /\ digits B (shl_from w s low x) /\
  valB B (shl_from w s low x) = (2 ^ s * valB B x + lb) mod B ^ Z.of_nat (length x).
Proof.
  intros Hs. pose proof (B_pos w Hw) as HB. unfold Digits.B in HB.
  assert (EB : B = 2 ^ (w - s) * 2 ^ s) by (rewrite <- Z.pow_add_r by lia; f_equal; lia).
  assert (Ps : 0 < 2 ^ s) by (apply Z.pow_pos_nonneg; lia).
  assert (Pw : 0 < 2 ^ (w - s)) by (apply Z.pow_pos_nonneg; lia).
  induction x as [|d x IH]; intros low Hl H lb.
  - cbn [shl_from length valB]. change (Z.of_nat 0) with 0. rewrite Z.pow_0_r, Z.mod_1_r. repeat split; auto.
  - apply digits_cons in H as [Hd Hx]. specialize (IH (Some d) Hd Hx). destruct IH as (L & D & V).
    cbn [shl_from].
    assert (E : match low with None => dshl w d s | Some l => SHIFTL w d l s end = (d * 2 ^ s + lb) mod B).
    { destruct low as [l|]; unfold lb.
      - rewrite (SHIFTL_spec w Hw) by (auto; lia). reflexivity.
      - unfold dshl. rewrite Z.shiftl_mul_pow2 by lia. unfold Digits.B. f_equal. lia. }
    rewrite E.
    assert (Hlb : 0 <= lb < 2 ^ s).
    { unfold lb. destruct low as [l|]; [|lia]. split; [apply Z.div_pos; lia|].
      apply Z.div_lt_upper_bound; lia. }
    split; [cbn [length]; rewrite L; reflexivity|]. split.
    + apply digits_cons; split; auto. apply Z.mod_pos_bound; auto.
    + cbn [length valB]. rewrite V, Nat2Z.inj_succ, Z.pow_succ_r by lia.
      assert (PB : 0 < B ^ Z.of_nat (length x)) by (apply Z.pow_pos_nonneg; lia).
      rewrite Z.rem_mul_r by lia. f_equal.
      * rewrite <- (Z.mod_add (d * 2 ^ s + lb) (2 ^ s * valB B x)) by lia. f_equal. ring.
      * f_equal. f_equal.
        replace (2 ^ s * (d + B * valB B x) + lb) with ((2 ^ s * d + lb) + (2 ^ s * valB B x) * B) by ring.
        rewrite Z.div_add by lia.
        assert (Q : (2 ^ s * d + lb) / B = d / 2 ^ (w - s)).
        { rewrite EB.
          symmetry. apply Z.div_unique with (r := 2 ^ s * (d mod 2 ^ (w - s)) + lb).
          - left. pose proof (Z.mod_pos_bound d _ Pw). nia.
          - pose proof (Z.div_mod d (2 ^ (w - s)) ltac:(lia)). nia. }
        rewrite Q. lia.
Qed.
Lemma shl_words_spec fuel : forall shift j, 0 <= shift -> (Z.to_nat shift <= fuel)%nat ->
  exists s k, shl_words fuel w shift j = (s, (j + k)%nat) /\ shift = s + Z.of_nat k * w /\
  0 <= s <= w /\ (s = 0 -> shift = 0).
Proof.
  induction fuel as [|f IH]; intros shift j H0 Hf; cbn [shl_words].
  - exists shift, O. rewrite Nat.add_0_r. repeat split; lia.
  - destruct (Z.ltb_spec w shift).
    + destruct (IH (shift - w) (S j)) as (s & k & E1 & E2 & E3 & E4); try lia.
      exists s, (S k). rewrite E1. repeat split; try lia. f_equal. lia.
    + exists shift, O. rewrite Nat.add_0_r. repeat split; lia.
Qed.

Lemma mp_shiftleft_spec x shift : digits B x -> 0 <= shift <= Z.of_nat (length x) * w ->
  shift = 0 \/ shift mod w <> 0 ->
  mp_shiftleft w x shift = Some (toB B (length x) (valB B x * 2 ^ shift)).
Proof.
  intros Hx H0 Hm. unfold mp_shiftleft.
  destruct (shl_words_spec (Z.to_nat shift) shift 0) as (s & k & E1 & E2 & E3 & E4); try lia.
  rewrite E1. cbn [Nat.add].
  pose proof (B_pos w Hw) as HB. unfold Digits.B in HB.
  assert (Hk : (k <= length x)%nat) by nia.
  destruct (Nat.leb_spec k (length x)); [|lia].
  assert (Hy : digits B (repeat 0 k ++ firstn (length x - k) x)).
  { apply digits_app; split; [apply digits_repeat0; auto|now apply digits_firstn]. }
  assert (Ly : length (repeat 0 k ++ firstn (length x - k) x) = length x).
  { rewrite app_length, repeat_length, firstn_length. lia. }
  assert (Vy : valB B (repeat 0 k ++ firstn (length x - k) x) =
               (valB B x * B ^ Z.of_nat k) mod B ^ Z.of_nat (length x)).
  { rewrite valB_app, repeat_length, valB_repeat0, Z.add_0_l.
    assert (EX : valB B x = valB B (firstn (length x - k) x)
                  + B ^ Z.of_nat (length x - k) * valB B (skipn (length x - k) x)).
    { rewrite <- (firstn_skipn (length x - k) x) at 1. rewrite valB_app.
      rewrite firstn_length_le by lia. reflexivity. }
    rewrite EX.
    replace (B ^ Z.of_nat (length x)) with (B ^ Z.of_nat (length x - k) * B ^ Z.of_nat k)
      by (rewrite <- Z.pow_add_r by lia; f_equal; lia).
    assert (0 < B ^ Z.of_nat k) by (apply Z.pow_pos_nonneg; lia).
    assert (0 < B ^ Z.of_nat (length x - k)) by (apply Z.pow_pos_nonneg; lia).
    rewrite Z.mul_mod_distr_r by lia.
    rewrite (Z.mul_comm (B ^ Z.of_nat (length x - k)) _), Z.mod_add by lia.
    pose proof (valB_bound B (firstn (length x - k) x) HB (digits_firstn _ _ _ Hx)) as BF.
    rewrite firstn_length_le in BF by lia. rewrite Z.mod_small by lia. ring. }
  set (y := repeat 0 k ++ firstn (length x - k) x) in *.
  assert (HR : B ^ Z.of_nat k = 2 ^ (Z.of_nat k * w)) by (rewrite <- Z.pow_mul_r by lia; f_equal; lia).
  assert (HL : 0 < B ^ Z.of_nat (length x)) by (apply Z.pow_pos_nonneg; lia).
  destruct (Z.eqb_spec s 0) as [Es|Es].
  - f_equal. apply valB_inj with (B := B); auto using toB_digits.
    + rewrite toB_length. auto.
    + rewrite valB_toB, Vy, HR by auto. f_equal. f_equal. f_equal. lia.
  - destruct (Z.ltb_spec s w) as [Hs|Hs].
    + destruct (shl_from_spec s y ltac:(lia) None I Hy) as (L & D & V).
      f_equal. apply valB_inj with (B := B); auto using toB_digits.
      * rewrite toB_length. congruence.
      * rewrite valB_toB, V, Ly, Vy, HR, Z.add_0_r by auto.
        rewrite Zmult_mod_idemp_r. f_equal.
        rewrite E2, Z.pow_add_r by lia. ring.
    + exfalso. assert (s = w) by lia. destruct Hm as [Hm|Hm]; [nia|]. apply Hm.
      rewrite E2, H1. replace (w + Z.of_nat k * w) with ((1 + Z.of_nat k) * w) by ring. apply Z_mod_mult.
Qed.
(** A shift count that is a positive multiple of the digit size is undefined behaviour. *)
Lemma mp_shiftleft_ub x shift : 0 < shift -> shift mod w = 0 -> mp_shiftleft w x shift = None.
Proof.
  intros H0 Hm. unfold mp_shiftleft.
  destruct (shl_words_spec (Z.to_nat shift) shift 0) as (s & k & E1 & E2 & E3 & E4); try lia.
  rewrite E1. assert (s = w).
  { rewrite E2, Z.mod_add in Hm by lia. destruct (Z.eq_dec s w); auto. rewrite Z.mod_small in Hm by lia. lia. }
  subst s. destruct (_ <=? _)%nat; auto. destruct (Z.eqb_spec w 0); [lia|].
  now rewrite Z.ltb_irrefl.
Qed.
End Shl.

(** ** Equality and order of field elements *)
Section P.
Variable P : params.
Hypothesis HW : Wf P.
Hypothesis Hp : prime (par_p P).
Local Notation w := (radix P).
Local Notation n := (nwords P).
Local Notation p := (par_p P).
Local Notation R := (par_R P).
Local Notation val := (valB (2 ^ radix P)).
Local Notation ok := (ok P).
Local Notation rep := (rep P).
Local Notation srep := (srep P).
Local Notation db := (digit_bytes w).

Definition Fth' := Fp_field p Hp.
Add Field FpFd' : Fth'.

Lemma bytes_ok a : ok a -> bytes_of_digits w a = toB 256 (n * db) (val a).
Proof.
  intros [L D]. rewrite (bytes_of_digits_spec w (w2 P HW) (wf_radix8 P HW)) by auto. now rewrite L.
Qed.
Lemma R256 : 256 ^ Z.of_nat (n * db) = R.
Proof.
  rewrite Nat2Z.inj_mul, Z.mul_comm, Z.pow_mul_r by lia.
  rewrite (DB w (w2 P HW) (wf_radix8 P HW)). reflexivity.
Qed.

Lemma fp_equal_spec a b x y : srep a x -> srep b y ->
  fp_equal P a b = if Fp_dec p x y then 255 else 0.
Proof.
  intros Ha Hb. unfold fp_equal.
  pose proof (srep_sub P HW Hp a b x y Ha Hb) as Hs.
  destruct (rep_corr P HW Hp _ _ Hs) as [(Oc & _ & Ec) Bc].
  set (c := fpcorrection P (fpsub P a b)) in *.
  pose proof (ok_bound P HW c Oc) as B0. pose proof (ppos P HW) as Hpp.
  rewrite ct_compare_spec.
  - assert (EQ : bytes_of_digits w c = repeat 0 (felm_bytes P) <-> x = y).
    { rewrite bytes_ok by auto. unfold felm_bytes.
      assert (X : x = y <-> val c = 0).
      { split.
        - intros ->. assert (Z0 : mkF p (val c) = f0).
          { rewrite <- (toF_R P HW Hp), Ec. ring. }
          apply mkF_eq in Z0. rewrite Z.mod_0_l, Z.mod_small in Z0; lia.
        - intros V. assert (S0 : fsub x y = f0).
          { rewrite <- Ec. apply (toF_intro P HW Hp). rewrite V. fold (@f0 p). ring. }
          transitivity (fadd (fsub x y) y); [ring|rewrite S0; ring]. }
      rewrite X. split.
      - intros E. apply (f_equal (valB 256)) in E. rewrite valB_toB, valB_repeat0, R256 in E by lia.
        rewrite Z.mod_small in E; lia.
      - intros ->. clear. induction (n * db)%nat as [|k IH]; [reflexivity|]. cbn [toB repeat].
        f_equal. exact IH. }
    destruct (list_eq_dec _ _ _) as [E|E]; destruct (Fp_dec p x y) as [E'|E']; try tauto; reflexivity.
  - rewrite bytes_ok by auto. apply toB_digits. lia.
  - apply digits_repeat0. lia.
  - rewrite bytes_ok by auto. rewrite toB_length, repeat_length. reflexivity.
Qed.

Lemma fp2_equal_spec a b (x y : K2 (FP P HW Hp)) : srep2 P HW Hp a x -> srep2 P HW Hp b y ->
  fp2_equal P a b = if K2_dec _ x y then 255 else 0.
Proof.
  intros [H1 H2] [H3 H4]. unfold fp2_equal.
  rewrite (fp_equal_spec _ _ _ _ H1 H3), (fp_equal_spec _ _ _ _ H2 H4).
  destruct x as [x0 x1], y as [y0 y1]; cbn [fst snd].
  destruct (K2_dec _ (x0, x1) (y0, y1)) as [E|N].
  - inversion E; subst. destruct (Fp_dec p y0 y0), (Fp_dec p y1 y1); try tauto.
  - destruct (Fp_dec p x0 y0) as [->|]; [destruct (Fp_dec p x1 y1) as [->|]|]; try tauto; try reflexivity.
Qed.

Lemma proj_equal_spec k X1 Z1 X2 Z2 (x1 z1 x2 z2 : K2 (FP P HW Hp)) : 0 <= k <= 11 ->
  rep2 P HW Hp k X1 x1 -> rep2 P HW Hp k Z1 z1 -> rep2 P HW Hp k X2 x2 -> rep2 P HW Hp k Z2 z2 ->
  proj_equal P X1 Z1 X2 Z2 = if K2_dec _ (qmul _ x1 z2) (qmul _ x2 z1) then 255 else 0.
Proof.
  intros Hk H1 H2 H3 H4. unfold proj_equal.
  apply fp2_equal_spec; apply (rep2_mul P HW Hp k k); auto; nia.
Qed.

(** fp_lt compares the integers held by the arrays. *)
Lemma fp_lt_spec a b : ok a -> ok b -> fp_lt P a b = if val a <? val b then 255 else 0.
Proof.
  intros Ha Hb. unfold fp_lt. rewrite mp_sub_spec; [|apply (w2 P HW)|apply Ha|apply Hb|].
  - unfold Digits.B. cbn [fst]. destruct (_ <? _); reflexivity.
  - destruct Ha as [-> _], Hb as [-> _]. reflexivity.
Qed.
(** On canonical integers obtained by from_mont it is the order of the representatives. *)
Lemma fp_lt_mont k a b x y : k <= 255 -> rep k a x -> rep k b y ->
  fp_lt P (from_mont P a) (from_mont P b) = if fval x <? fval y then 255 else 0.
Proof.
  intros Hk Ha Hb. destruct (from_mont_val P HW Hp k a x Ha Hk) as [O1 V1].
  destruct (from_mont_val P HW Hp k b y Hb Hk) as [O2 V2].
  rewrite fp_lt_spec by auto. now rewrite V1, V2.
Qed.

(** ** Encoding *)
Lemma fpb : 256 ^ Z.of_nat (fp_bytes P) <= R.
Proof.
  rewrite <- R256. apply Z.pow_le_mono_r; [lia|]. pose proof (wf_bytes P HW) as [_ H].
  unfold digit_bytes. lia.
Qed.
Lemma p_lt_bytes : p < 256 ^ Z.of_nat (fp_bytes P).
Proof.
  pose proof (wf_nbits P HW) as [_ H]. pose proof (wf_nbits0 P HW). unfold fp_bytes.
  rewrite Z2Nat.id by (apply Z.div_pos; lia). change 256 with (2 ^ 8).
  rewrite <- Z.pow_mul_r by (try apply Z.div_pos; lia).
  eapply Z.lt_le_trans; [exact H|]. apply Z.pow_le_mono_r; [lia|].
  pose proof (Z.div_mod (nbits P + 7) 8 ltac:(lia)). pose proof (Z.mod_pos_bound (nbits P + 7) 8 ltac:(lia)). lia.
Qed.
Lemma firstn_toB B k m x : (k <= m)%nat -> firstn k (toB B m x) = toB B k x.
Proof.
  revert m x; induction k as [|k IH]; intros [|m] x H; try lia; cbn [toB firstn]; auto.
  f_equal. apply IH. lia.
Qed.
Lemma encode_from_mont k a x : k <= 255 -> rep k a x ->
  encode_to_bytes P (from_mont P a) (fp_bytes P) = toB 256 (fp_bytes P) (fval x).
Proof.
  intros Hk Ha. destruct (from_mont_val P HW Hp k a x Ha Hk) as [O V].
  unfold encode_to_bytes. rewrite bytes_ok, V by auto. apply firstn_toB.
  pose proof (wf_bytes P HW) as [_ H]. exact H.
Qed.
Lemma decode_ok old x : length old = n -> digits (2 ^ w) old -> length x = fp_bytes P -> digits 256 x ->
  ok (decode_to_digits P old x) /\ val (decode_to_digits P old x) = valB 256 x.
Proof.
  intros Lo Do Lx Dx. unfold decode_to_digits.
  pose proof (wf_bytes P HW) as [H1 H2]. pose proof (wf_n1 P HW) as HN.
  change (Z.to_nat (w / 8)) with db in H1, H2.
  assert (Ou : ok (upd (n - 1) 0 old)).
  { split; [now rewrite upd_length|]. apply digits_upd; auto. pose proof (Bpos P HW). lia. }
  set (dec := bytes_of_digits w (upd (n - 1) 0 old)).
  assert (Ed : dec = toB 256 (n * db) (val (upd (n - 1) 0 old))) by now apply bytes_ok.
  assert (Dz : skipn (fp_bytes P) dec = repeat 0 (n * db - fp_bytes P)).
  { unfold dec, bytes_of_digits.
    assert (Es : upd (n - 1) 0 old = firstn (n - 1) old ++ [0]).
    { clear - Lo HN. replace n with (S (n - 1)) in Lo by lia. set (m := (n - 1)%nat) in *. clearbody m.
      revert m Lo. induction old as [|d old IH]; intros [|m] Lo; cbn in Lo; try lia; cbn [upd firstn app].
      - destruct old; [reflexivity|cbn in Lo; lia].
      - f_equal. apply IH. lia. }
    rewrite Es, flat_map_app. cbn [flat_map]. rewrite app_nil_r.
    assert (L0 : length (flat_map (toB 256 db) (firstn (n - 1) old)) = ((n - 1) * db)%nat).
    { assert (X : forall l, length (flat_map (toB 256 db) l) = (length l * db)%nat).
      { clear. induction l; cbn [flat_map length Nat.mul]; [reflexivity|]. rewrite app_length, toB_length, IHl. lia. }
      rewrite X, firstn_length. f_equal. lia. }
    rewrite skipn_app, skipn_all2 by lia. rewrite L0. cbn [app].
    assert (T0 : forall k, toB 256 k 0 = repeat 0 k).
    { clear. induction k; cbn [toB repeat]; [reflexivity|]. f_equal. exact IHk. }
    rewrite T0.
    assert (SR : forall a b, skipn a (repeat 0 b) = repeat 0 (b - a)).
    { clear. induction a; intros [|b]; cbn [skipn repeat Nat.sub]; auto. }
    rewrite SR. f_equal. replace (n * db)%nat with ((n - 1) * db + db)%nat by nia. lia. }
  rewrite Lx, Dz.
  destruct (digits_of_bytes_spec w (w2 P HW) (wf_radix8 P HW) n (x ++ repeat 0 (n * db - fp_bytes P))) as (A1 & A2 & A3).
  - apply digits_app; split; auto. apply digits_repeat0; lia.
  - rewrite app_length, repeat_length. lia.
  - split; [split; auto|]. rewrite A3, valB_app, valB_repeat0. lia.
Qed.

Lemma fp2_encode_spec k a x : k <= 255 -> rep2 P HW Hp k a x ->
  fp2_encode P a = toB 256 (fp_bytes P) (fval (fst x)) ++ toB 256 (fp_bytes P) (fval (snd x)).
Proof.
  intros Hk [H1 H2]. unfold fp2_encode, from_fp2mont. cbn [fst snd].
  rewrite (encode_from_mont k _ _ Hk H1), (encode_from_mont k _ _ Hk H2). reflexivity.
Qed.
Definition dec_val (x : list Z) : K2 (FP P HW Hp) :=
  (mkF p (valB 256 (firstn (fp_bytes P) x)), mkF p (valB 256 (firstn (fp_bytes P) (skipn (fp_bytes P) x)))).
Lemma fp2_decode_spec old x : ok (fst old) -> ok (snd old) -> digits 256 x -> length x = (2 * fp_bytes P)%nat ->
  srep2 P HW Hp (fp2_decode P old x) (dec_val x).
Proof.
  intros [L1 D1] [L2 D2] Dx Lx. unfold fp2_decode, to_fp2mont.
  destruct (decode_ok (fst old) (firstn (fp_bytes P) x)) as [O3 V3]; auto.
  { rewrite firstn_length. lia. } { now apply digits_firstn. }
  destruct (decode_ok (snd old) (firstn (fp_bytes P) (skipn (fp_bytes P) x))) as [O4 V4]; auto.
  { rewrite firstn_length, skipn_length. lia. } { now apply digits_firstn, digits_skipn. }
  split; cbn [fst snd dec_val]; [rewrite <- V3|rewrite <- V4]; now apply to_mont_rep.
Qed.
(** Decoding and encoding again: the canonical bytes of the values mod p. *)
Lemma decode_encode old x : ok (fst old) -> ok (snd old) -> digits 256 x -> length x = (2 * fp_bytes P)%nat ->
  fp2_encode P (fp2_decode P old x) =
  toB 256 (fp_bytes P) (valB 256 (firstn (fp_bytes P) x) mod p) ++
  toB 256 (fp_bytes P) (valB 256 (skipn (fp_bytes P) x) mod p).
Proof.
  intros H1 H2 H3 H4. pose proof (fp2_decode_spec old x H1 H2 H3 H4) as H.
  apply srep2_rep2 in H. rewrite (fp2_encode_spec 2 _ _ ltac:(lia) H). cbn [dec_val fst snd fval mkF proj1_sig].
  rewrite (firstn_all2 (skipn _ _)) by (rewrite skipn_length; lia). reflexivity.
Qed.
End P.
