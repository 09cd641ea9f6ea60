(** Model of the byte-level and comparison helpers: S/fpx.c (ct_compare, ct_cmov, mp_shiftleft,
    is_sqr_fp2) and the utility functions of S/poik.c:68-240. *)
From Verif Require Import Base Digits Params Fp.

(* fpx.c:24-33 ct_compare: uint8 OR of XORs, then (int8_t)((-(int32_t)r) >> 31) *)
Definition ct_compare (a b : list Z) : Z :=
  let r := fold_left (fun r '(x, y) => Z.lor r (Z.lxor x y)) (combine a b) 0 in
  Z.shiftr (- r) 31.

(* fpx.c:36-42 ct_cmov: r[i] ^= selector & (a[i] ^ r[i]); the selector is an int8_t, the
   result is stored in a uint8_t *)
Definition ct_cmov (r a : list Z) (selector : Z) : list Z :=
  map (fun '(x, y) => (Z.lxor x (Z.land selector (Z.lxor y x))) mod 256) (combine r a).

(* fpx.c:812-830 mp_shiftleft.  [None] is undefined behaviour: an out-of-bounds access, or a
   digit shifted by RADIX or more in SHIFTL / "x[0] <<= shift". *)
Fixpoint shl_from (w s : Z) (low : option Z) (x : list Z) : list Z :=
  match x with
  | [] => []
  | d :: r => match low with
              | None => dshl w d s
              | Some l => SHIFTL w d l s
              end :: shl_from w s (Some d) r
  end.
(* "while (shift > RADIX) { j += 1; shift -= RADIX; }" *)
Fixpoint shl_words (fuel : nat) (w shift : Z) (j : nat) : Z * nat :=
  match fuel with
  | O => (shift, j)
  | S f => if w <? shift then shl_words f w (shift - w) (S j) else (shift, j)
  end.
Definition mp_shiftleft (w : Z) (x : list Z) (shift : Z) : option (list Z) :=
  let n := length x in
  let '(s, j) := shl_words (Z.to_nat shift) w shift 0 in
  if (j <=? n)%nat then
    let y := repeat 0 j ++ firstn (n - j) x in
    if s =? 0 then Some y
    else if s <? w then Some (shl_from w s None y) else None
  else None.

Section Misc.
Variable P : params.
Local Notation w := (radix P).
Local Notation n := (nwords P).
Definition felm_bytes : nat := (n * digit_bytes w)%nat.       (* sizeof(felm_t) *)

(* poik.c:78-84 fp_equal: 0xff or 0 as uint8_t *)
Definition fp_equal (a b : felm) : Z :=
  let c := fpcorrection P (fpsub P a b) in
  (Z.lnot (ct_compare (bytes_of_digits w c) (repeat 0 felm_bytes))) mod 256.
(* poik.c:85-88 fp2_equal *)
Definition fp2_equal (a b : f2elm) : Z := Z.land (fp_equal (fst a) (fst b)) (fp_equal (snd a) (snd b)).
(* poik.c:92-98 proj_equal *)
Definition proj_equal (X1 Z1 X2 Z2 : f2elm) : Z := fp2_equal (fp2mul_mont P X1 Z2) (fp2mul_mont P X2 Z1).

(* poik.c:131-136 fp_lt: -(uint8_t)(borrow & 1) *)
Definition fp_lt (x y : felm) : Z := (- Z.land (fst (mp_sub w x y)) 1) mod 256.

(* poik.c:108-113 fprand: sizeof(felm_t) random bytes, the top digit masked by
   (digit_t)-1 >> NBITS_FIELD % RADIX *)
Definition fprand (bytes : list Z) : felm :=
  let el := digits_of_bytes w n bytes in
  upd (n - 1) (Z.land (nth (n - 1) el 0) (Z.shiftr (2 ^ w - 1) (nbits P mod w))) el.

(* ec_isogeny.c swap_points: for every digit, temp = option & (p ^ q); p = temp ^ p; q = temp ^ q *)
Definition swap_digits (option : Z) (p q : list Z) : list Z * list Z :=
  let t := map (fun '(x, y) => Z.land option (Z.lxor x y)) (combine p q) in
  (map (fun '(t, x) => Z.lxor t x) (combine t p), map (fun '(t, y) => Z.lxor t y) (combine t q)).
End Misc.
