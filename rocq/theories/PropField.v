(** Property theorems C07, C19-C22, C34, C50: field encoding, constants, inversion, GF(p^2),
    comparison and selection, random field elements, word shifts. *)
From Coq Require Import Znumtheory.
From Verif Require Import Base BaseP Digits DigitsP CombaP Params Fp Wf FpP Fld FpRep FpMisc FpMiscP PrimeInst FpInst.

(** * C19: constants and primality *)
(** [good P]: the tables are consistent (Wf.v) and the modulus they describe is prime. *)
Theorem C19_configurations : forall t, good (P434 t) /\ good (P503 t) /\ good (P610 t) /\ good (P751 t).
Proof. exact good_configs. Qed.
Print Assumptions C19_configurations.

Theorem C19_constants : forall P, good P ->
  let val := valB (2 ^ radix P) in
  let p := val (w_p P) in let R := 2 ^ (radix P * Z.of_nat (nwords P)) in
  prime p /\ p mod 4 = 3 /\ p = 2 ^ Z.of_nat (e2 P) * 3 ^ Z.of_nat (e3 P) - 1 /\
  val (w_px2 P) = 2 * p /\ val (w_px4 P) = 4 * p /\ val (w_pp1 P) = p + 1 /\
  val (w_one P) = R mod p /\ val (w_R2 P) = (R * R) mod p /\
  2 ^ (nbits P - 1) <= p < 2 ^ nbits P /\ 256 * p <= R.
Proof. exact constants_ok. Qed.
Print Assumptions C19_constants.

Theorem C19_primes : prime (2 ^ 216 * 3 ^ 137 - 1) /\ prime (2 ^ 250 * 3 ^ 159 - 1) /\
  prime (2 ^ 305 * 3 ^ 192 - 1) /\ prime (2 ^ 372 * 3 ^ 239 - 1) /\
  forall t, par_p (P434 t) = 2 ^ 216 * 3 ^ 137 - 1 /\ par_p (P503 t) = 2 ^ 250 * 3 ^ 159 - 1 /\
            par_p (P610 t) = 2 ^ 305 * 3 ^ 192 - 1 /\ par_p (P751 t) = 2 ^ 372 * 3 ^ 239 - 1.
Proof. exact primes_ok. Qed.
Print Assumptions C19_primes.

Example C19_example : good Ptoy /\ par_p Ptoy = 62207.
Proof. split; [exact good_toy|]. vm_compute. reflexivity. Qed.

(** * The element represented by a digit array.
    [toF P a] is the x with a = x R (mod p); [fval] is its canonical integer. *)
Theorem C20_toF_meaning : forall P, good P -> forall a,
  (fval (toF P a) * 2 ^ (radix P * Z.of_nat (nwords P))) mod par_p P = valB (2 ^ radix P) a mod par_p P /\
  0 <= fval (toF P a) < par_p P.
Proof. exact toF_meaning. Qed.
Print Assumptions C20_toF_meaning.

(** * C20: inversion *)
Theorem C20_fpinv : forall P, good P -> forall a, ok P a -> valB (2 ^ radix P) a <= 2 * par_p P ->
  let r := fpinv_mont P a in
  ok P r /\ valB (2 ^ radix P) r < 2 * par_p P /\
  (toF P a <> f0 -> fmul (toF P a) (toF P r) = f1) /\ (toF P a = f0 -> toF P r = f0).
Proof. exact fpinv_thm. Qed.
Print Assumptions C20_fpinv.

Theorem C20_chain : forall P, good P -> forall a, ok P a -> valB (2 ^ radix P) a <= 2 * par_p P ->
  fval (toF P (fpinv_chain_mont P a)) = (fval (toF P a) ^ ((par_p P - 3) / 4)) mod par_p P.
Proof. exact chain_thm. Qed.
Print Assumptions C20_chain.

Theorem C20_fp2inv : forall P, good P -> forall a, ok P (fst a) -> ok P (snd a) ->
  valB (2 ^ radix P) (fst a) <= 2 * par_p P -> valB (2 ^ radix P) (snd a) <= 2 * par_p P ->
  let r := fp2inv_mont P a in
  let x := toF P (fst a) in let y := toF P (snd a) in
  let u := toF P (fst r) in let v := toF P (snd r) in
  ok P (fst r) /\ ok P (snd r) /\
  valB (2 ^ radix P) (fst r) < 2 * par_p P /\ valB (2 ^ radix P) (snd r) < 2 * par_p P /\
  ((x, y) <> (f0, f0) -> (fsub (fmul x u) (fmul y v), fadd (fmul x v) (fmul y u)) = (f1, f0)) /\
  ((x, y) = (f0, f0) -> (u, v) = (f0, f0)).
Proof. exact fp2inv_thm. Qed.
Print Assumptions C20_fp2inv.

Example C20_example : let a := toB 256 3 4711 in
  ok Ptoy a /\ (4711 * valB 256 (fpinv_mont Ptoy a)) mod 62207 = (2 ^ 24 * 2 ^ 24) mod 62207.
Proof. split; [split; [reflexivity|repeat constructor; vm_compute; congruence]|]. vm_compute. reflexivity. Qed.

(** * C21: GF(p^2), inputs up to j p and k p with 2jk < 256 (products), 4p (squares) *)
Theorem C21_fp2mul : forall P, good P -> forall j k a b,
  0 <= j <= 100 -> 0 <= k <= 100 -> 2 * (j * k) <= 255 ->
  ok P (fst a) -> ok P (snd a) -> ok P (fst b) -> ok P (snd b) ->
  valB (2 ^ radix P) (fst a) <= j * par_p P -> valB (2 ^ radix P) (snd a) <= j * par_p P ->
  valB (2 ^ radix P) (fst b) <= k * par_p P -> valB (2 ^ radix P) (snd b) <= k * par_p P ->
  let r := fp2mul_mont P a b in
  ok P (fst r) /\ ok P (snd r) /\
  valB (2 ^ radix P) (fst r) < 2 * par_p P /\ valB (2 ^ radix P) (snd r) < 2 * par_p P /\
  toF P (fst r) = fsub (fmul (toF P (fst a)) (toF P (fst b))) (fmul (toF P (snd a)) (toF P (snd b))) /\
  toF P (snd r) = fadd (fmul (toF P (fst a)) (toF P (snd b))) (fmul (toF P (snd a)) (toF P (fst b))).
Proof. exact fp2mul_thm. Qed.
Print Assumptions C21_fp2mul.

Theorem C21_fp2sqr : forall P, good P -> forall a,
  ok P (fst a) -> ok P (snd a) ->
  valB (2 ^ radix P) (fst a) <= 4 * par_p P -> valB (2 ^ radix P) (snd a) <= 4 * par_p P ->
  let r := fp2sqr_mont P a in
  ok P (fst r) /\ ok P (snd r) /\
  valB (2 ^ radix P) (fst r) < 2 * par_p P /\ valB (2 ^ radix P) (snd r) < 2 * par_p P /\
  toF P (fst r) = fsub (fmul (toF P (fst a)) (toF P (fst a))) (fmul (toF P (snd a)) (toF P (snd a))) /\
  toF P (snd r) = fadd (fmul (toF P (fst a)) (toF P (snd a))) (fmul (toF P (snd a)) (toF P (fst a))).
Proof. exact fp2sqr_thm. Qed.
Print Assumptions C21_fp2sqr.

Example C21_example : let a := (toB 256 3 124414, toB 256 3 62207) in let b := (toB 256 3 5, toB 256 3 124000) in
  ok Ptoy (fst a) /\ valB 256 (fst a) = 2 * 62207 /\
  (2 ^ 24 * valB 256 (fst (fp2mul_mont Ptoy b b))) mod 62207 = (5 * 5 - 124000 * 124000) mod 62207 /\
  (2 ^ 24 * valB 256 (snd (fp2mul_mont Ptoy b b))) mod 62207 = (2 * 5 * 124000) mod 62207 /\
  valB 256 (snd (fp2mul_mont Ptoy a b)) mod 62207 = 0.
Proof. split; [split; [reflexivity|repeat constructor; vm_compute; congruence]|]. vm_compute. repeat split; congruence. Qed.

(** * C22: comparisons and selection *)
Theorem C22_fp_equal : forall P, good P -> forall a b, ok P a -> ok P b ->
  valB (2 ^ radix P) a < 2 * par_p P -> valB (2 ^ radix P) b < 2 * par_p P ->
  (fp_equal P a b = 255 <-> valB (2 ^ radix P) a mod par_p P = valB (2 ^ radix P) b mod par_p P) /\
  (fp_equal P a b = 255 \/ fp_equal P a b = 0).
Proof. exact fp_equal_thm. Qed.
Print Assumptions C22_fp_equal.

(** The bound is sharp: a value of exactly 2p is not recognised as zero. *)
Theorem C22_fp_equal_2p : forall P, good P -> fp_equal P (w_px2 P) (fpzero P) = 0.
Proof. exact fp_equal_2p. Qed.
Print Assumptions C22_fp_equal_2p.

Theorem C22_fp2_equal : forall P, good P -> forall a b,
  ok P (fst a) -> ok P (snd a) -> ok P (fst b) -> ok P (snd b) ->
  valB (2 ^ radix P) (fst a) < 2 * par_p P -> valB (2 ^ radix P) (snd a) < 2 * par_p P ->
  valB (2 ^ radix P) (fst b) < 2 * par_p P -> valB (2 ^ radix P) (snd b) < 2 * par_p P ->
  (fp2_equal P a b = 255 <-> toF P (fst a) = toF P (fst b) /\ toF P (snd a) = toF P (snd b)) /\
  (fp2_equal P a b = 255 \/ fp2_equal P a b = 0).
Proof. exact fp2_equal_thm. Qed.
Print Assumptions C22_fp2_equal.

Theorem C22_fp_lt : forall P, good P -> forall a b, ok P a -> ok P b ->
  fp_lt P a b = if valB (2 ^ radix P) a <? valB (2 ^ radix P) b then 255 else 0.
Proof. exact (fun P HG => fp_lt_spec P (proj1 HG)). Qed.
Print Assumptions C22_fp_lt.

Theorem C22_from_mont : forall P, good P -> forall a, ok P a -> valB (2 ^ radix P) a <= 255 * par_p P ->
  ok P (from_mont P a) /\ valB (2 ^ radix P) (from_mont P a) = fval (toF P a).
Proof. exact from_mont_thm. Qed.
Print Assumptions C22_from_mont.

Theorem C22_ct_compare : forall a b, digits 256 a -> digits 256 b -> length a = length b ->
  ct_compare a b = if list_eq_dec Z.eq_dec a b then 0 else -1.
Proof. exact ct_compare_spec. Qed.
Print Assumptions C22_ct_compare.

Theorem C22_ct_cmov : forall r a, digits 256 r -> digits 256 a -> length r = length a ->
  ct_cmov r a 0 = r /\ ct_cmov r a (-1) = a.
Proof. exact ct_cmov_spec. Qed.
Print Assumptions C22_ct_cmov.

Theorem C22_swap_digits : forall w p q, 0 <= w -> digits (2 ^ w) p -> digits (2 ^ w) q -> length p = length q ->
  swap_digits 0 p q = (p, q) /\ swap_digits (2 ^ w - 1) p q = (q, p).
Proof. exact swap_digits_spec. Qed.
Print Assumptions C22_swap_digits.

Example C22_example : ct_compare [1; 255; 7] [1; 254; 7] = -1 /\ ct_compare [1; 255] [1; 255] = 0 /\
  ct_cmov [1; 2; 3] [200; 100; 0] (-1) = [200; 100; 0] /\
  fp_equal Ptoy (toB 256 3 5) (toB 256 3 62212) = 255 /\ fp_equal Ptoy (toB 256 3 5) (toB 256 3 6) = 0 /\
  fp_lt Ptoy (toB 256 3 5) (toB 256 3 600) = 255.
Proof. vm_compute. repeat split. Qed.

(** * C07: packed field elements.  [old] is the uninitialised destination of the decoder. *)
Theorem C07_decode_encode : forall P, good P -> forall old x,
  ok P (fst old) -> ok P (snd old) -> digits 256 x -> length x = (2 * fp_bytes P)%nat ->
  fp2_encode P (fp2_decode P old x) =
  toB 256 (fp_bytes P) (valB 256 (firstn (fp_bytes P) x) mod par_p P) ++
  toB 256 (fp_bytes P) (valB 256 (skipn (fp_bytes P) x) mod par_p P).
Proof. exact decode_encode_thm. Qed.
Print Assumptions C07_decode_encode.

(** The decoded element is the one with these integers as components (whatever was in the
    destination before), in range for every later use. *)
Theorem C07_decode : forall P, good P -> forall old x,
  ok P (fst old) -> ok P (snd old) -> digits 256 x -> length x = (2 * fp_bytes P)%nat ->
  let r := fp2_decode P old x in
  ok P (fst r) /\ ok P (snd r) /\
  valB (2 ^ radix P) (fst r) < 2 * par_p P /\ valB (2 ^ radix P) (snd r) < 2 * par_p P /\
  fval (toF P (fst r)) = valB 256 (firstn (fp_bytes P) x) mod par_p P /\
  fval (toF P (snd r)) = valB 256 (skipn (fp_bytes P) x) mod par_p P.
Proof. exact decode_thm. Qed.
Print Assumptions C07_decode.

(** The encoding is canonical: it is a function of the element and determines it. *)
Theorem C07_encode : forall P, good P -> forall a b,
  ok P (fst a) -> ok P (snd a) -> ok P (fst b) -> ok P (snd b) ->
  valB (2 ^ radix P) (fst a) <= 255 * par_p P -> valB (2 ^ radix P) (snd a) <= 255 * par_p P ->
  valB (2 ^ radix P) (fst b) <= 255 * par_p P -> valB (2 ^ radix P) (snd b) <= 255 * par_p P ->
  length (fp2_encode P a) = (2 * fp_bytes P)%nat /\ digits 256 (fp2_encode P a) /\
  valB 256 (firstn (fp_bytes P) (fp2_encode P a)) = fval (toF P (fst a)) /\
  valB 256 (skipn (fp_bytes P) (fp2_encode P a)) = fval (toF P (snd a)) /\
  (fp2_encode P a = fp2_encode P b <-> toF P (fst a) = toF P (fst b) /\ toF P (snd a) = toF P (snd b)).
Proof. exact encode_thm. Qed.
Print Assumptions C07_encode.

Theorem C07_canonical_roundtrip : forall P, good P -> forall old x,
  ok P (fst old) -> ok P (snd old) -> digits 256 x -> length x = (2 * fp_bytes P)%nat ->
  valB 256 (firstn (fp_bytes P) x) < par_p P -> valB 256 (skipn (fp_bytes P) x) < par_p P ->
  fp2_encode P (fp2_decode P old x) = x.
Proof. exact canonical_roundtrip. Qed.
Print Assumptions C07_canonical_roundtrip.

Example C07_example : fp_bytes Ptoy = 2%nat /\
  fp2_encode Ptoy (fp2_decode Ptoy ([1; 2; 3], [4; 5; 6]) [17; 34; 255; 255]) = [17; 34; 0; 13] /\
  65535 mod 62207 = 13 * 256.
Proof. vm_compute. repeat split. Qed.

(** * C34: random field elements *)
(** In range for the 64-bit code; NOT in range for 32-bit code with p610 and p751. *)
Theorem C34_fprand_range_64 : forall P, In P [P434 T64; P503 T64; P610 T64; P751 T64] ->
  forall bytes, digits 256 bytes -> length bytes = felm_bytes P ->
  ok P (fprand P bytes) /\ valB (2 ^ radix P) (fprand P bytes) < par_p P.
Proof. exact fprand_range_64. Qed.
Print Assumptions C34_fprand_range_64.

Theorem C34_fprand_range_32 : forall P, In P [P434 T32; P503 T32] ->
  forall bytes, digits 256 bytes -> length bytes = felm_bytes P ->
  ok P (fprand P bytes) /\ valB (2 ^ radix P) (fprand P bytes) < par_p P.
Proof. exact fprand_range_32. Qed.
Print Assumptions C34_fprand_range_32.

Theorem C34_fprand_range_32_refuted : forall P, In P [P610 T32; P751 T32] ->
  exists bytes, digits 256 bytes /\ length bytes = felm_bytes P /\
    2 * par_p P < valB (2 ^ radix P) (fprand P bytes).
Proof. exact fprand_range_32_refuted. Qed.
Print Assumptions C34_fprand_range_32_refuted.

(** Not every element can occur: some x in GF(p) is the value of no output of fprand. *)
Theorem C34_fprand_surjective_refuted : forall P, In P [P434 T64; P503 T64; P610 T64; P751 T64] ->
  exists x : Fp (par_p P), forall bytes, digits 256 bytes -> length bytes = felm_bytes P ->
    toF P (fprand P bytes) <> x.
Proof. exact fprand_not_surjective. Qed.
Print Assumptions C34_fprand_surjective_refuted.

Example C34_example : valB (2 ^ 64) (fprand (P434 T64) (repeat 255 56)) = 2 ^ 398 - 1 /\
  felm_bytes (P434 T64) = 56%nat.
Proof. vm_compute. split; reflexivity. Qed.

(** * C50: shifts by several words *)
Theorem C50_mp_shiftleft : forall w x shift, 2 <= w -> digits (2 ^ w) x ->
  0 <= shift <= Z.of_nat (length x) * w -> shift = 0 \/ shift mod w <> 0 ->
  mp_shiftleft w x shift = Some (toB (2 ^ w) (length x) (valB (2 ^ w) x * 2 ^ shift)).
Proof. exact (fun w x shift Hw => mp_shiftleft_spec w Hw x shift). Qed.
Print Assumptions C50_mp_shiftleft.

Theorem C50_mp_shiftleft_refuted : forall w x shift, 2 <= w -> 0 < shift -> shift mod w = 0 ->
  mp_shiftleft w x shift = None.
Proof. exact (fun w x shift Hw => mp_shiftleft_ub w Hw x shift). Qed.
Print Assumptions C50_mp_shiftleft_refuted.

Example C50_shiftleft_example : mp_shiftleft 64 [5; 2 ^ 63; 1] 65 = Some [0; 10; 0] /\
  mp_shiftleft 64 [5; 1; 1] 128 = None.
Proof. vm_compute. split; reflexivity. Qed.
