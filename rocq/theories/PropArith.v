(** Property theorems C15-C18, C50 (part): multiprecision and GF(p) arithmetic.
    Each is closed by a lemma of the proof files; the Examples show the hypotheses are met. *)
From Verif Require Import Base BaseP Digits DigitsP CombaP Params Fp Wf FpP.

(** * C15: exact addition and subtraction, for every radix >= 2 bits and word count *)
Theorem C15_mp_add : forall w a b, 2 <= w -> digits (2 ^ w) a -> digits (2 ^ w) b -> length a = length b ->
  mp_add w a b = ((valB (2 ^ w) a + valB (2 ^ w) b) / (2 ^ w) ^ Z.of_nat (length a),
                  toB (2 ^ w) (length a) (valB (2 ^ w) a + valB (2 ^ w) b)).
Proof. exact (fun w a b Hw => mp_add_spec w Hw a b). Qed.
Print Assumptions C15_mp_add.

Theorem C15_mp_sub : forall w a b, 2 <= w -> digits (2 ^ w) a -> digits (2 ^ w) b -> length a = length b ->
  mp_sub w a b = ((if valB (2 ^ w) a <? valB (2 ^ w) b then 1 else 0),
                  toB (2 ^ w) (length a) (valB (2 ^ w) a - valB (2 ^ w) b)).
Proof. exact (fun w a b Hw => mp_sub_spec w Hw a b). Qed.
Print Assumptions C15_mp_sub.

Theorem C15_ADDC : forall w c x y, 2 <= w -> 0 <= c <= 1 -> 0 <= x < 2 ^ w -> 0 <= y < 2 ^ w ->
  ADDC w c x y = ((x + y + c) / 2 ^ w, (x + y + c) mod 2 ^ w).
Proof. exact (fun w c x y Hw => ADDC_spec w Hw c x y). Qed.
Print Assumptions C15_ADDC.

Theorem C15_SUBC : forall w c x y, 2 <= w -> 0 <= c <= 1 -> 0 <= x < 2 ^ w -> 0 <= y < 2 ^ w ->
  SUBC w c x y = ((if x - y - c <? 0 then 1 else 0), (x - y - c) mod 2 ^ w).
Proof. exact (fun w c x y Hw => SUBC_spec w Hw c x y). Qed.
Print Assumptions C15_SUBC.

(** The digit lists of the two theorems above determine the integer: [valB] of [toB] is the
    value modulo the array size. *)
Theorem C15_toB_meaning : forall w k x, 2 <= w ->
  length (toB (2 ^ w) k x) = k /\ digits (2 ^ w) (toB (2 ^ w) k x) /\
  valB (2 ^ w) (toB (2 ^ w) k x) = x mod (2 ^ w) ^ Z.of_nat k.
Proof.
  exact (fun w k x Hw => conj (toB_length (2 ^ w) k x)
    (conj (toB_digits (2 ^ w) k x (B_pos w Hw)) (valB_toB (2 ^ w) k x (B_pos w Hw)))).
Qed.
Print Assumptions C15_toB_meaning.

Example C15_example : digits (2 ^ 64) [2 ^ 64 - 1; 5] /\
  mp_add 64 [2 ^ 64 - 1; 2 ^ 64 - 1] [1; 0] = (1, [0; 0]) /\
  mp_sub 32 [0; 0; 7] [1; 0; 0] = (0, [2 ^ 32 - 1; 2 ^ 32 - 1; 6]).
Proof. split; [repeat constructor; vm_compute; congruence|]. split; vm_compute; reflexivity. Qed.

(** * C16: exact multiplication, for every even radix and every word count below 2^w *)
Theorem C16_digit_x_digit : forall h a b, 2 <= h -> 0 <= a < 2 ^ (2 * h) -> 0 <= b < 2 ^ (2 * h) ->
  let '(c0, c1) := digit_x_digit (2 * h) a b in
  0 <= c0 < 2 ^ (2 * h) /\ 0 <= c1 < 2 ^ (2 * h) /\ c0 + 2 ^ (2 * h) * c1 = a * b.
Proof. exact (fun h a b Hh => digit_x_digit_spec h Hh a b). Qed.
Print Assumptions C16_digit_x_digit.

Theorem C16_mp_mul : forall h a b n, 2 <= h -> (1 <= n)%nat -> Z.of_nat n < 2 ^ (2 * h) ->
  length a = n -> length b = n -> digits (2 ^ (2 * h)) a -> digits (2 ^ (2 * h)) b ->
  mp_mul (2 * h) a b n = toB (2 ^ (2 * h)) (2 * n) (valB (2 ^ (2 * h)) a * valB (2 ^ (2 * h)) b).
Proof. exact (fun h a b n Hh => mp_mul_spec h Hh a b n). Qed.
Print Assumptions C16_mp_mul.

Example C16_example : mp_mul 32 [2 ^ 32 - 1; 2 ^ 32 - 1] [2 ^ 32 - 1; 2 ^ 32 - 1] 2 = [1; 0; 2 ^ 32 - 2; 2 ^ 32 - 1].
Proof. vm_compute. reflexivity. Qed.

(** * C17: Montgomery reduction *)
Theorem C17_rdc_mont : forall P m, Wf P ->
  length m = (2 * nwords P)%nat -> digits (2 ^ radix P) m -> valB (2 ^ radix P) m < par_R P * par_p P ->
  let r := rdc_mont (radix P) (w_pp1 P) (zwords P) (nwords P) m in
  exists q, 0 <= q < par_R P /\ ok P r /\
    par_R P * valB (2 ^ radix P) r = valB (2 ^ radix P) m + q * par_p P /\
    0 <= valB (2 ^ radix P) r < 2 * par_p P.
Proof. exact (fun P m HW => rdc_ok P HW m). Qed.
Print Assumptions C17_rdc_mont.

(** The eight configurations of the repository satisfy the well-formedness hypothesis. *)
Theorem C17_configurations : forall t, Wf (P434 t) /\ Wf (P503 t) /\ Wf (P610 t) /\ Wf (P751 t).
Proof. exact (fun t => conj (Wf_P434 t) (conj (Wf_P503 t) (conj (Wf_P610 t) (Wf_P751 t)))). Qed.
Print Assumptions C17_configurations.

Example C17_example :
  let m := mp_mul 64 t434_R2 t434_one 7 in
  valB (2 ^ 64) m < par_R (P434 T64) * par_p (P434 T64) /\ 0 < valB (2 ^ 64) m.
Proof. vm_compute. split; reflexivity. Qed.

(** * C18: modular operations.  [val] is the integer held by a digit array. *)
Section C18.
Variable P : params.
Local Notation val := (valB (2 ^ radix P)).
Local Notation p := (par_p P).

Theorem C18_fpadd : Wf P -> forall a b, ok P a -> ok P b -> val a < 2 * p -> val b < 2 * p ->
  ok P (fpadd P a b) /\ 0 <= val (fpadd P a b) < 2 * p /\ (val (fpadd P a b)) mod p = (val a + val b) mod p.
Proof. exact (fpadd_range P). Qed.

Theorem C18_fpsub : Wf P -> forall a b, ok P a -> ok P b -> val a < 2 * p -> val b < 2 * p ->
  ok P (fpsub P a b) /\ 0 <= val (fpsub P a b) < 2 * p /\ (val (fpsub P a b)) mod p = (val a - val b) mod p.
Proof. exact (fpsub_range P). Qed.

(** fpneg: the result is congruent to -a, and lies in [1,2p]; the upper end, outside the
    documented range [0,2p-1], is reached exactly for a = 0. *)
Theorem C18_fpneg : Wf P -> forall a, ok P a -> val a < 2 * p ->
  ok P (fpneg P a) /\ 0 < val (fpneg P a) <= 2 * p /\ (val (fpneg P a)) mod p = (- val a) mod p /\
  (val (fpneg P a) = 2 * p <-> val a = 0).
Proof. exact (fpneg_range P). Qed.

Theorem C18_fpdiv2 : Wf P -> forall a, ok P a -> val a < 2 * p ->
  ok P (fpdiv2 P a) /\ 0 <= val (fpdiv2 P a) < 2 * p /\ (2 * val (fpdiv2 P a)) mod p = val a mod p.
Proof. exact (fpdiv2_range P). Qed.

Theorem C18_fpcorrection : Wf P -> forall a, ok P a -> val a < 2 * p ->
  ok P (fpcorrection P a) /\ val (fpcorrection P a) = val a mod p.
Proof. exact (fpcorrection_range P). Qed.

Theorem C18_fpmul : Wf P -> forall a b, ok P a -> ok P b -> val a * val b < par_R P * p ->
  ok P (fpmul_mont P a b) /\ 0 <= val (fpmul_mont P a b) < 2 * p /\
  (par_R P * val (fpmul_mont P a b)) mod p = (val a * val b) mod p.
Proof. exact (fpmul_range P). Qed.
End C18.
Print Assumptions C18_fpadd.
Print Assumptions C18_fpsub.
Print Assumptions C18_fpneg.
Print Assumptions C18_fpdiv2.
Print Assumptions C18_fpcorrection.
Print Assumptions C18_fpmul.

(** The documented range of fpneg ("Input/output: a in [0, 2*p-1]") is violated in every
    configuration. *)
Theorem C18_fpneg_documented_range_refuted : forall t, exists a,
  ok (P434 t) a /\ valB (2 ^ radix (P434 t)) a < 2 * par_p (P434 t) /\
  ~ valB (2 ^ radix (P434 t)) (fpneg (P434 t) a) < 2 * par_p (P434 t).
Proof. exact fpneg_zero_refuted. Qed.
Print Assumptions C18_fpneg_documented_range_refuted.

Example C18_example : ok (P434 T64) (w_R2 (P434 T64)) /\
  0 < valB (2 ^ 64) (w_R2 (P434 T64)) < 2 * par_p (P434 T64).
Proof. split; [exact (wf_R2 _ (Wf_P434 T64))|]. vm_compute. split; reflexivity. Qed.

(** * C50 (shifts by one) *)
Theorem C50_mp_shiftr1 : forall w x, 2 <= w -> digits (2 ^ w) x ->
  length (mp_shiftr1 w x) = length x /\ digits (2 ^ w) (mp_shiftr1 w x) /\
  valB (2 ^ w) (mp_shiftr1 w x) = valB (2 ^ w) x / 2.
Proof. exact (fun w x Hw => mp_shiftr1_spec w Hw x). Qed.
Print Assumptions C50_mp_shiftr1.

Theorem C50_mp_shiftl1 : forall w x, 2 <= w -> digits (2 ^ w) x ->
  mp_shiftl1 w x = toB (2 ^ w) (length x) (2 * valB (2 ^ w) x).
Proof. exact (fun w x Hw => mp_shiftl1_spec w Hw x). Qed.
Print Assumptions C50_mp_shiftl1.

Example C50_example : mp_shiftr1 32 [1; 1; 3] = [2 ^ 31; 2 ^ 31; 1] /\ mp_shiftl1 32 [2 ^ 31; 2 ^ 31; 1] = [0; 1; 3].
Proof. vm_compute. split; reflexivity. Qed.
