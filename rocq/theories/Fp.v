(** Model of GF(p) and GF(p^2) arithmetic at the level of digits: S/P434/generic/fp_generic.c
    (the files of the four primes are identical up to names) and S/fpx.c, for a parameter
    set [P].  A felm_t is a list of [nwords P] digits, an f2elm_t is a pair of those.
    Only the GENERIC_IMPLEMENTATION branches are modelled. *)
From Verif Require Import Base Digits Params.

Definition felm : Type := list Z.
Definition f2elm : Type := felm * felm.

(** Bytes of a digit, least significant first (little-endian memory), and back. *)
Definition digit_bytes (w : Z) : nat := Z.to_nat (w / 8).            (* sizeof(digit_t) *)
Definition bytes_of_digits (w : Z) (x : list Z) : list Z := flat_map (toB 256 (digit_bytes w)) x.
Fixpoint digits_of_bytes (w : Z) (n : nat) (b : list Z) : list Z :=
  match n with
  | O => []
  | S m => valB 256 (firstn (digit_bytes w) b) :: digits_of_bytes w m (skipn (digit_bytes w) b)
  end.

Section Fp.
Variable P : params.
Local Notation w := (radix P).
Local Notation n := (nwords P).

(* "((digit_t* )table)[i] & mask" with mask = 0 - (digit_t)c *)
Definition masked (c : Z) (t : list Z) : list Z := map (fun x => Z.land x (dsub w 0 c)) t.

(* fp_generic.c:22-34 mp_sub434_p2 *)
Definition mp_sub_p2 (a b : felm) : felm :=
  let '(_, c) := subc_loop w 0 a b in
  let '(_, c) := addc_loop w 0 c (w_px2 P) in c.

(* fp_generic.c:37-49 mp_sub434_p4 *)
Definition mp_sub_p4 (a b : felm) : felm :=
  let '(_, c) := subc_loop w 0 a b in
  let '(_, c) := addc_loop w 0 c (w_px4 P) in c.

(* fp_generic.c:52-73 fpadd434 *)
Definition fpadd (a b : felm) : felm :=
  let '(_, c) := addc_loop w 0 a b in
  let '(carry, c) := subc_loop w 0 c (w_px2 P) in
  let '(_, c) := addc_loop w 0 c (masked carry (w_px2 P)) in c.

(* fp_generic.c:76-92 fpsub434 *)
Definition fpsub (a b : felm) : felm :=
  let '(borrow, c) := subc_loop w 0 a b in
  let '(_, c) := addc_loop w 0 c (masked borrow (w_px2 P)) in c.

(* fp_generic.c:95-103 fpneg434 *)
Definition fpneg (a : felm) : felm :=
  let '(_, c) := subc_loop w 0 (w_px2 P) a in c.

(* fp_generic.c:106-119 fpdiv2_434 *)
Definition fpdiv2 (a : felm) : felm :=
  let '(_, c) := addc_loop w 0 a (masked (Z.land (nth 0 a 0) 1) (w_p P)) in
  mp_shiftr1 w c.

(* fp_generic.c:122-136 fpcorrection434 *)
Definition fpcorrection (a : felm) : felm :=
  let '(borrow, c) := subc_loop w 0 a (w_p P) in
  let '(_, c) := addc_loop w 0 c (masked borrow (w_p P)) in c.

(* fpx.c:104-110 fpzero *)
Definition fpzero : felm := repeat 0 n.

(* fpx.c:141-152 fpmul_mont, generic branch *)
Definition fpmul_mont (a b : felm) : felm :=
  rdc_mont w (w_pp1 P) (zwords P) n (mp_mul w a b n).

(* fpx.c:154-165 fpsqr_mont *)
Definition fpsqr_mont (a : felm) : felm :=
  rdc_mont w (w_pp1 P) (zwords P) n (mp_mul w a a n).

(* fpx.c:113-119 to_mont *)
Definition to_mont (a : felm) : felm := fpmul_mont a (w_R2 P).

(* fpx.c:122-130 from_mont *)
Definition from_mont (a : felm) : felm := fpcorrection (fpmul_mont a (upd 0 1 fpzero)).

(* fpx.c:360-777 fpinv_chain_mont, interpreting the recorded chain *)
Definition chain_mul (a : felm) (t : list felm) (tt : felm) (s : chain_step) : felm :=
  let '(k, m) := s in
  let tt := Nat.iter k fpsqr_mont tt in
  match m with
  | None => fpmul_mont a tt
  | Some i => fpmul_mont (nth i t []) tt
  end.
Definition fpinv_chain_mont (a : felm) : felm :=
  let tt := fpsqr_mont a in
  let t := upd 0 (fpmul_mont a tt) (repeat [] (inv_size P)) in
  let t := fold_left (fun t '(i, j) => upd j (fpmul_mont (nth i t []) tt) t) (inv_table P) t in
  let tt := fold_left (chain_mul a t) (inv_steps P) a in
  let '(k, body) := inv_loop P in
  Nat.iter k (fun tt => fold_left (chain_mul a t) body tt) tt.

(* fpx.c:167-176 fpinv_mont *)
Definition fpinv_mont (a : felm) : felm :=
  let tt := fpinv_chain_mont a in
  let tt := fpsqr_mont tt in
  let tt := fpsqr_mont tt in
  fpmul_mont a tt.

(* fpx.c:186-219 *)
Definition fp2zero : f2elm := (fpzero, fpzero).
Definition fp2neg (a : f2elm) : f2elm := (fpneg (fst a), fpneg (snd a)).
Definition fp2add (a b : f2elm) : f2elm := (fpadd (fst a) (fst b), fpadd (snd a) (snd b)).
Definition fp2sub (a b : f2elm) : f2elm := (fpsub (fst a) (fst b), fpsub (snd a) (snd b)).
Definition fp2div2 (a : f2elm) : f2elm := (fpdiv2 (fst a), fpdiv2 (snd a)).
Definition fp2correction (a : f2elm) : f2elm := (fpcorrection (fst a), fpcorrection (snd a)).

(* fpx.c:228-238 mp_addfast, generic branch *)
Definition mp_addfast (a b : felm) : felm := snd (mp_add w a b).

(* fpx.c:240-250 mp2_add, mp2_sub_p2 *)
Definition mp2_add (a b : f2elm) : f2elm := (mp_addfast (fst a) (fst b), mp_addfast (snd a) (snd b)).
Definition mp2_sub_p2 (a b : f2elm) : f2elm := (mp_sub_p2 (fst a) (fst b), mp_sub_p2 (snd a) (snd b)).

(* fpx.c:265-287 fp2sqr_mont, #else branch; sub_p4 is mp_sub_p4 (P434.c: #define sub_p4 mp_sub_p4) *)
Definition fp2sqr_mont (a : f2elm) : f2elm :=
  let '(a0, a1) := a in
  let t1 := mp_addfast a0 a1 in
  let t2 := mp_sub_p4 a0 a1 in
  let t3 := mp_addfast a0 a0 in
  (fpmul_mont t1 t2, fpmul_mont t3 a1).

(* fpx.c:300-315 mp_subaddfast, generic branch: operates on 2*n digits *)
Definition mp_subaddfast (a b : list Z) : list Z :=
  let '(borrow, c) := mp_sub w a b in
  let t1 := masked borrow (w_p P) in
  firstn n c ++ mp_addfast (skipn n c) t1.

(* fpx.c:317-329 mp_dblsubfast, generic branch: c - a - b on 2*n digits *)
Definition mp_dblsubfast (a b c : list Z) : list Z :=
  let c := snd (mp_sub w c a) in
  snd (mp_sub w c b).

(* fpx.c:332-357 fp2mul_mont, #else branch *)
Definition fp2mul_mont (a b : f2elm) : f2elm :=
  let '(a0, a1) := a in
  let '(b0, b1) := b in
  let t1 := mp_addfast a0 a1 in
  let t2 := mp_addfast b0 b1 in
  let tt1 := mp_mul w a0 b0 n in
  let tt2 := mp_mul w a1 b1 n in
  let tt3 := mp_mul w t1 t2 n in
  let tt3 := mp_dblsubfast tt1 tt2 tt3 in
  let tt1 := mp_subaddfast tt1 tt2 in
  let rdc := rdc_mont w (w_pp1 P) (zwords P) n in
  (rdc tt1, rdc tt3).

(* fpx.c:780-792 fp2inv_mont *)
Definition fp2inv_mont (a : f2elm) : f2elm :=
  let '(a0, a1) := a in
  let t10 := fpsqr_mont a0 in
  let t11 := fpsqr_mont a1 in
  let t10 := fpadd t10 t11 in
  let t10 := fpinv_mont t10 in
  let a1 := fpneg a1 in
  (fpmul_mont a0 t10, fpmul_mont a1 t10).

(* fpx.c:795-810 to_fp2mont, from_fp2mont *)
Definition to_fp2mont (a : f2elm) : f2elm := (to_mont (fst a), to_mont (snd a)).
Definition from_fp2mont (a : f2elm) : f2elm := (from_mont (fst a), from_mont (snd a)).

(* fpx.c:45-60 encode_to_bytes, little-endian branch: memcpy of nbytes *)
Definition encode_to_bytes (x : felm) (nbytes : nat) : list Z :=
  firstn nbytes (bytes_of_digits w x).

(* fpx.c:63-72 decode_to_digits, little-endian branch; [old] is the previous (uninitialised)
   content of the destination *)
Definition decode_to_digits (old : felm) (x : list Z) : felm :=
  let dec := bytes_of_digits w (upd (n - 1) 0 old) in
  digits_of_bytes w n (x ++ skipn (length x) dec).

(* fpx.c:75-82 fp2_encode *)
Definition fp2_encode (x : f2elm) : list Z :=
  let t := from_fp2mont x in
  encode_to_bytes (fst t) (fp_bytes P) ++ encode_to_bytes (snd t) (fp_bytes P).

(* fpx.c:85-92 fp2_decode *)
Definition fp2_decode (old : f2elm) (x : list Z) : f2elm :=
  to_fp2mont (decode_to_digits (fst old) (firstn (fp_bytes P) x),
              decode_to_digits (snd old) (firstn (fp_bytes P) (skipn (fp_bytes P) x))).

(* fpx.c:853-861 is_felm_zero *)
Definition is_felm_zero (x : felm) : bool := forallb (fun d => d =? 0) x.

End Fp.
