(** The operation record on digit arrays: what the C code computes. *)
From Verif Require Import Base Digits Out Params Fp FpMisc Ops.

Section WordOps.
Variable P : params.
Local Notation w := (radix P).
Local Notation n := (nwords P).

(* poik.c:142-152, 166-174: a^((p+1)/4) by OALICE_BITS - 2 squarings and OBOB_EXPON cubings *)
Definition fp_root (a : felm) : felm :=
  let t1 := Nat.iter (e2 P - 2) (fpsqr_mont P) a in
  Nat.iter (e3 P) (fun t1 => fpmul_mont P t1 (fpsqr_mont P t1)) t1.
(* poik.c:139-206 fp2sqrt, the value stored in y; memcmp looks at NBITS_TO_NBYTES(NBITS_FIELD) bytes *)
Definition fp2sqrt_word (x : f2elm) : f2elm :=
  let (a, b) := x in
  if negb (fp_equal P b (fpzero P) =? 0) then
    let t1 := fp_root a in
    let t0 := fpsqr_mont P t1 in
    if negb (fp_equal P t0 a =? 0) then (t1, fpzero P) else (fpzero P, t1)
  else
    let t0 := fpsqr_mont P a in
    let t1 := fpsqr_mont P b in
    let t0 := fpadd P t0 t1 in
    let t1 := fp_root t0 in
    let v := fpadd P a t1 in
    let v := fpdiv2 P v in
    let v := fpcorrection P v in
    let t2 := fpinv_chain_mont P v in
    let t1 := fpmul_mont P v t2 in
    let t2 := fpmul_mont P t2 b in
    let t2 := fpdiv2 P t2 in
    let u := fpsqr_mont P t1 in
    let u := fpcorrection P u in
    if list_eq_dec Z.eq_dec (firstn (fp_bytes P) (bytes_of_digits w v)) (firstn (fp_bytes P) (bytes_of_digits w u))
    then (t1, t2) else (t2, fpneg P t1).

(* poik.c:492-500 *)
Definition lt_word (x y : f2elm) : bool :=
  let re0 := from_mont P (fst y) in let im0 := from_mont P (snd y) in
  let re := from_mont P (fst x) in let im := from_mont P (snd x) in
  let lt_re := fp_lt P re re0 in
  let gt_re := fp_lt P re0 re in
  let lt_im := fp_lt P im im0 in
  let eq_re := Z.land (Z.lnot lt_re) (Z.lnot gt_re) in
  negb ((Z.lor lt_re (Z.land eq_re lt_im)) mod 256 =? 0).

(** The elements of the tape are taken modulo 256: any list of integers is a tape of bytes. *)
Definition rand_word (tp : tape) : out (f2elm * tape) :=
  let k := felm_bytes P in
  if (length tp <? 2 * k)%nat then NoTape
  else let b := map (fun x => x mod 256) tp in
       Ok ((fprand P (firstn k b), fprand P (firstn k (skipn k b))), skipn (2 * k) tp).

Definition fp2zero_w : f2elm := (fpzero P, fpzero P).
Definition word_ops : fops :=
  mkOps f2elm
    fp2zero_w
    (w_one P, fpzero P)                                   (* poik.c:69-73 *)
    (upd 0 1 (fpzero P), fpzero P)                        (* poik.c:848 {1} *)
    (fp2add P) (fp2sub P) (mp2_add P) (mp2_sub_p2 P) (fp2mul_mont P) (fp2sqr_mont P)
    (fp2neg P) (fp2inv_mont P) (fp2div2 P)
    (fun x => (fpadd P (fst x) (w_one P), snd x))
    fp2sqrt_word
    (fun x y => negb (fp2_equal P x y =? 0))              (* poik.c:85-88 *)
    lt_word
    (fp2_encode P)
    (fp2_decode P fp2zero_w)
    rand_word.
End WordOps.
