(** Model of the digit macros of S/config.h and of the word-count generic multiprecision
    functions of S/fpx.c and S/P434/generic/fp_generic.c, in radix 2^w.
    A digit_t is a [Z] in [0,2^w); every C operation that can wrap is reduced mod 2^w. *)
From Verif Require Import Base.

Section Digits.
Variable w : Z.   (* RADIX: 32 or 64 *)

Definition B : Z := 2 ^ w.

(* unsigned wrap-around arithmetic of digit_t *)
Definition dadd (x y : Z) : Z := (x + y) mod B.
Definition dsub (x y : Z) : Z := (x - y) mod B.
Definition dmul (x y : Z) : Z := (x * y) mod B.
Definition dshl (x n : Z) : Z := (Z.shiftl x n) mod B.

(* S/config.h:168-171 is_digit_nonzero_ct: (unsigned int)((x | (0-x)) >> (RADIX-1)) *)
Definition is_digit_nonzero_ct (x : Z) : Z :=
  (Z.shiftr (Z.lor x (dsub 0 x)) (w - 1)) mod 2 ^ 32.

(* S/config.h:173-176 is_digit_zero_ct *)
Definition is_digit_zero_ct (x : Z) : Z := Z.lxor 1 (is_digit_nonzero_ct x).

(* S/config.h:178-181 is_digit_lessthan_ct: (x ^ ((x ^ y) | ((x - y) ^ y))) >> (RADIX-1) *)
Definition is_digit_lessthan_ct (x y : Z) : Z :=
  (Z.shiftr (Z.lxor x (Z.lor (Z.lxor x y) (Z.lxor (dsub x y) y))) (w - 1)) mod 2 ^ 32.

(* S/config.h:193-196 ADDC (generic variant): returns (carryOut, sumOut) *)
Definition ADDC (carryIn a1 a2 : Z) : Z * Z :=
  let tempReg := dadd a1 carryIn in
  let sumOut := dadd a2 tempReg in
  (Z.lor (is_digit_lessthan_ct tempReg carryIn) (is_digit_lessthan_ct sumOut tempReg), sumOut).

(* S/config.h:199-203 SUBC (generic variant): returns (borrowOut, differenceOut) *)
Definition SUBC (borrowIn m s : Z) : Z * Z :=
  let tempReg := dsub m s in
  let borrowReg := Z.lor (is_digit_lessthan_ct m s) (Z.land borrowIn (is_digit_zero_ct tempReg)) in
  (borrowReg, dsub tempReg borrowIn).

(* S/config.h:206-207 SHIFTR with DigitSize = RADIX; defined for 0 < shift < RADIX *)
Definition SHIFTR (highIn lowIn shift : Z) : Z :=
  Z.lxor (Z.shiftr lowIn shift) (dshl highIn (w - shift)).

(* S/config.h:210-211 SHIFTL with DigitSize = RADIX; defined for 0 < shift < RADIX *)
Definition SHIFTL (highIn lowIn shift : Z) : Z :=
  Z.lxor (dshl highIn shift) (Z.shiftr lowIn (w - shift)).

(* the loops "for (i = 0; i < n; i++) ADDC(carry, a[i], b[i], carry, c[i])" *)
Fixpoint addc_loop (carry : Z) (a b : list Z) : Z * list Z :=
  match a, b with
  | x :: a', y :: b' =>
      let '(c1, s) := ADDC carry x y in
      let '(co, r) := addc_loop c1 a' b' in (co, s :: r)
  | _, _ => (carry, [])
  end.

Fixpoint subc_loop (borrow : Z) (a b : list Z) : Z * list Z :=
  match a, b with
  | x :: a', y :: b' =>
      let '(c1, s) := SUBC borrow x y in
      let '(co, r) := subc_loop c1 a' b' in (co, s :: r)
  | _, _ => (borrow, [])
  end.

(* S/fpx.c:252-262 mp_add; the word count is the common length of the lists.
   Returns (carry, c). *)
Definition mp_add (a b : list Z) : Z * list Z := addc_loop 0 a b.

(* S/fpx.c:288-297 mp_sub; returns (borrow, c). *)
Definition mp_sub (a b : list Z) : Z * list Z := subc_loop 0 a b.

(* S/fpx.c:833-840 mp_shiftr1: for i < nwords-1: SHIFTR(x[i+1], x[i], 1, x[i]); x[nwords-1] >>= 1 *)
Fixpoint mp_shiftr1 (x : list Z) : list Z :=
  match x with
  | [] => []
  | [d] => [Z.shiftr d 1]
  | d :: ((e :: _) as r) => SHIFTR e d 1 :: mp_shiftr1 r
  end.

(* S/fpx.c:843-850 mp_shiftl1: for i = nwords-1 downto 1: SHIFTL(x[i], x[i-1], 1, x[i]); x[0] <<= 1.
   [low] is the digit below the current one (None at the bottom). *)
Fixpoint mp_shiftl1_from (low : option Z) (x : list Z) : list Z :=
  match x with
  | [] => []
  | d :: r => match low with
              | None => dshl d 1
              | Some l => SHIFTL d l 1
              end :: mp_shiftl1_from (Some d) r
  end.
Definition mp_shiftl1 (x : list Z) : list Z := mp_shiftl1_from None x.

(* S/P434/generic/fp_generic.c:139-170 digit_x_digit: returns (c[0], c[1]) *)
Definition digit_x_digit (a b : Z) : Z * Z :=
  let h := w / 2 in                                   (* sizeof(digit_t)*4 *)
  let mask_low := Z.shiftr (B - 1) h in
  let mask_high := dshl (B - 1) h in
  let al := Z.land a mask_low in
  let ah := Z.shiftr a h in
  let bl := Z.land b mask_low in
  let bh := Z.shiftr b h in
  let albl := dmul al bl in
  let albh := dmul al bh in
  let ahbl := dmul ah bl in
  let ahbh := dmul ah bh in
  let c0 := Z.land albl mask_low in
  let res1 := Z.shiftr albl h in
  let res2 := Z.land ahbl mask_low in
  let res3 := Z.land albh mask_low in
  let temp := dadd (dadd res1 res2) res3 in
  let carry := Z.shiftr temp h in
  let c0 := Z.lxor c0 (dshl temp h) in
  let res1 := Z.shiftr ahbl h in
  let res2 := Z.shiftr albh h in
  let res3 := Z.land ahbh mask_low in
  let temp := dadd (dadd (dadd res1 res2) res3) carry in
  let c1 := Z.land temp mask_low in
  let carry := Z.land temp mask_high in
  let c1 := Z.lxor c1 (dadd (Z.land ahbh mask_high) carry) in
  (c0, c1).

(* The comba accumulator (t,u,v) and one multiply-accumulate step,
   S/P434/generic/fp_generic.c:181-184 (also 194-197, 223-226, 244-247). *)
Record acc := mkacc { acc_t : Z; acc_u : Z; acc_v : Z }.

Definition muladd (x y : Z) (s : acc) : acc :=
  let '(UV0, UV1) := digit_x_digit x y in
  let '(carry, v) := ADDC 0 UV0 (acc_v s) in
  let '(carry, u) := ADDC carry UV1 (acc_u s) in
  mkacc (dadd (acc_t s) carry) u v.

(* "c[i] = v; v = u; u = t; t = 0": the new accumulator after emitting v *)
Definition acc_shift (s : acc) : acc := mkacc 0 (acc_t s) (acc_u s).

(* S/P434/generic/fp_generic.c:173-205 mp_mul (comba).  [c] is updated in place, so the
   output array is threaded through the loops. *)
Definition mp_mul (a b : list Z) (nwords : nat) : list Z :=
  let col (lo hi i : nat) (s : acc) : acc :=
    fold_left (fun s j => muladd (nth j a 0) (nth (i - j) b 0) s) (seq lo (hi - lo)) s in
  let c0 := repeat 0 (2 * nwords) in
  let '(s, c) :=
    fold_left (fun '(s, c) i =>
      let s := col 0%nat (S i) i s in
      (acc_shift s, upd i (acc_v s) c)) (seq 0 nwords) (mkacc 0 0 0, c0) in
  let '(s, c) :=
    fold_left (fun '(s, c) i =>
      let s := col (i - nwords + 1)%nat nwords i s in
      (acc_shift s, upd i (acc_v s) c)) (seq nwords (nwords - 1)) (s, c) in
  upd (2 * nwords - 1) (acc_v s) c.

(* unsigned int subtraction/addition used in loop conditions: mod 2^32 *)
Definition u32 (x : Z) : Z := x mod 2 ^ 32.

(* "ADDC(0, v, ma[i], carry, v); ADDC(carry, u, 0, carry, u); t += carry;" fp_generic.c:229-231 *)
Definition accadd (x : Z) (s : acc) : acc :=
  let '(carry, v) := ADDC 0 (acc_v s) x in
  let '(carry, u) := ADDC carry (acc_u s) 0 in
  mkacc (dadd (acc_t s) carry) u v.

(* S/P434/generic/fp_generic.c:208-260 rdc_mont.  [p1] is the digit array of p+1, [zw] is
   pXXX_ZERO_WORDS, [n] is NWORDS_FIELD.  mc is read while it is being overwritten. *)
Definition rdc_mont (p1 : list Z) (zw n : nat) (ma : list Z) : list Z :=
  let mc := repeat 0 n in
  let '(s, mc) :=
    fold_left (fun '(s, mc) i =>
      let s := fold_left (fun s j =>
                 (* j < (i - ZERO_WORDS + 1), unsigned *)
                 if Z.of_nat j <? u32 (Z.of_nat i - Z.of_nat zw + 1)
                 then muladd (nth j mc 0) (nth (i - j) p1 0) s else s) (seq 0 i) s in
      let s := accadd (nth i ma 0) s in
      (acc_shift s, upd i (acc_v s) mc)) (seq 0 n) (mkacc 0 0 0, mc) in
  let '(s, mc, count) :=
    fold_left (fun '(s, mc, count) i =>
      let count := (if 0 <? count then u32 (count - 1) else count) in
      let s := fold_left (fun s j =>
                 if Z.of_nat j <? u32 (Z.of_nat n - count)
                 then muladd (nth j mc 0) (nth (i - j) p1 0) s else s)
                 (seq (i - n + 1) (n - (i - n + 1))) s in
      let s := accadd (nth i ma 0) s in
      (acc_shift s, upd (i - n) (acc_v s) mc, count)) (seq n (n - 1)) (s, mc, Z.of_nat zw) in
  let '(_, v) := ADDC 0 (acc_v s) (nth (2 * n - 1) ma 0) in
  upd (n - 1) v mc.

End Digits.
