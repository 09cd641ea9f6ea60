(** The operation record of the x86-64 build of p434: every field operation is a run of the code of S/P434/AMD64/fp_x64_asm.S on
    the machine of Asm.v, as called by S/P434/AMD64/fp_x64.c and the _MULX_ and _ADX_ branches of S/fpx.c (the default build).
    fpneg434, fpdiv2_434 and fpcorrection434 are C loops in fp_x64.c:120-160, the same as those of fp_generic.c, and are taken from Fp.v.

    Simplification.  A call is run from a state with the operands at fixed places that do not overlap (1000 and 2000) and the result at
    3000, 7 in the other registers and 5 in the rest of memory.  From any other state that satisfies the premises of C61-C63 the result
    words are the same, because they are those of the portable functions.  For the two halves of fp2mul434 C64 gives, from any state,
    a result below 2p with the right residue, and no more than this is used by C65.  The calling convention and the copying of
    operands by the compiler are not modelled. *)
From Verif Require Import Base Digits Out Params Fp FpMisc Ops WordOps Asm AsmP434 AsmRedP AsmSqr434 AsmRun434.

(** ** The functions of fpx.c and poik.c above fpmul_mont, fpadd and fpsub, which differ between the builds in these three calls only *)
Section Above.
Variable P : params.
Variables mul add sub : felm -> felm -> felm.       (* fpmul_mont, fpadd, fpsub *)
Local Notation w := (radix P).
Local Notation n := (nwords P).
Local Notation sqr := (fun a => mul a a).           (* fpsqr_mont, fpx.c:154-165 *)
(* fpx.c:113-130 to_mont, from_mont *)
Definition to_mont_m (a : felm) : felm := mul a (w_R2 P).
Definition from_mont_m (a : felm) : felm := fpcorrection P (mul a (upd 0 1 (fpzero P))).
(* fpx.c:360-777 fpinv_chain_mont *)
Definition chain_mul_m (a : felm) (t : list felm) (tt : felm) (s : chain_step) : felm :=
  let '(k, m) := s in
  let tt := Nat.iter k sqr tt in
  match m with None => mul a tt | Some i => mul (nth i t []) tt end.
Definition fpinv_chain_m (a : felm) : felm :=
  let tt := mul a a in
  let t := upd 0 (mul a tt) (repeat [] (inv_size P)) in
  let t := fold_left (fun t '(i, j) => upd j (mul (nth i t []) tt) t) (inv_table P) t in
  let tt := fold_left (chain_mul_m a t) (inv_steps P) a in
  let '(k, body) := inv_loop P in
  Nat.iter k (fun tt => fold_left (chain_mul_m a t) body tt) tt.
(* fpx.c:167-176 fpinv_mont *)
Definition fpinv_m (a : felm) : felm :=
  let tt := fpinv_chain_m a in
  let tt := mul tt tt in
  let tt := mul tt tt in
  mul a tt.
(* fpx.c:780-792 fp2inv_mont *)
Definition fp2inv_m (a : f2elm) : f2elm :=
  let '(a0, a1) := a in
  let t10 := mul a0 a0 in
  let t11 := mul a1 a1 in
  let t10 := add t10 t11 in
  let t10 := fpinv_m t10 in
  let a1 := fpneg P a1 in
  (mul a0 t10, mul a1 t10).
(* poik.c:78-88 fp_equal, fp2_equal *)
Definition fp_equal_m (a b : felm) : Z :=
  let c := fpcorrection P (sub a b) in
  (Z.lnot (ct_compare (bytes_of_digits w c) (repeat 0 (felm_bytes P)))) mod 256.
Definition fp2_equal_m (a b : f2elm) : Z := Z.land (fp_equal_m (fst a) (fst b)) (fp_equal_m (snd a) (snd b)).
(* poik.c:142-152 *)
Definition fp_root_m (a : felm) : felm :=
  let t1 := Nat.iter (e2 P - 2) sqr a in
  Nat.iter (e3 P) (fun t1 => mul t1 (mul t1 t1)) t1.
(* poik.c:139-206 fp2sqrt *)
Definition fp2sqrt_m (x : f2elm) : f2elm :=
  let (a, b) := x in
  if negb (fp_equal_m b (fpzero P) =? 0) then
    let t1 := fp_root_m a in
    let t0 := mul t1 t1 in
    if negb (fp_equal_m t0 a =? 0) then (t1, fpzero P) else (fpzero P, t1)
  else
    let t0 := mul a a in
    let t1 := mul b b in
    let t0 := add t0 t1 in
    let t1 := fp_root_m t0 in
    let v := add a t1 in
    let v := fpdiv2 P v in
    let v := fpcorrection P v in
    let t2 := fpinv_chain_m v in
    let t1 := mul v t2 in
    let t2 := mul t2 b in
    let t2 := fpdiv2 P t2 in
    let u := mul t1 t1 in
    let u := fpcorrection P u in
    if list_eq_dec Z.eq_dec (firstn (fp_bytes P) (bytes_of_digits w v)) (firstn (fp_bytes P) (bytes_of_digits w u))
    then (t1, t2) else (t2, fpneg P t1).
(* poik.c:492-500 *)
Definition lt_m (x y : f2elm) : bool :=
  let re0 := from_mont_m (fst y) in let im0 := from_mont_m (snd y) in
  let re := from_mont_m (fst x) in let im := from_mont_m (snd x) in
  let lt_re := fp_lt P re re0 in
  let gt_re := fp_lt P re0 re in
  let lt_im := fp_lt P im im0 in
  let eq_re := Z.land (Z.lnot lt_re) (Z.lnot gt_re) in
  negb ((Z.lor lt_re (Z.land eq_re lt_im)) mod 256 =? 0).
(* fpx.c:75-92 fp2_encode, fp2_decode *)
Definition fp2_encode_m (x : f2elm) : list Z :=
  encode_to_bytes P (from_mont_m (fst x)) (fp_bytes P) ++ encode_to_bytes P (from_mont_m (snd x)) (fp_bytes P).
Definition fp2_decode_m (old : f2elm) (x : list Z) : f2elm :=
  (to_mont_m (decode_to_digits P (fst old) (firstn (fp_bytes P) x)),
   to_mont_m (decode_to_digits P (snd old) (firstn (fp_bytes P) (skipn (fp_bytes P) x)))).
End Above.

(** ** The calls *)
Local Notation P := (P434 T64).
(** The seven words left at 3000 by a function of two operands and a result, and at 2000 by one of an operand and a result. *)
Definition call3 (f : list instr) (a b : list Z) : felm := wat (mem (run f (start a b))) 3000 0 7.
Definition call2 (f : list instr) (a : list Z) : felm := wat (mem (run f (start a []))) 2000 0 7.
Definition fpmul_x : felm -> felm -> felm := call3 fpmul434_asm.              (* fp_x64.c:189-192 and fpx.c:141-165 *)
Definition fpadd_x : felm -> felm -> felm := call3 fpadd434_asm.              (* fp_x64.c:61-90 *)
Definition fpsub_x : felm -> felm -> felm := call3 fpsub434_asm.              (* fp_x64.c:93-117 *)
Definition mp_add_x : felm -> felm -> felm := call3 mp_add434_asm.            (* fpx.c:228-238 *)
Definition mp_sub_p2_x : felm -> felm -> felm := call3 mp_sub434_p2_asm.      (* fp_x64.c:22-41 *)
Definition comp2 (f : felm -> felm -> felm) (a b : f2elm) : f2elm := (f (fst a) (fst b), f (snd a) (snd b)).
(* fpx.c:332-340 and fp_x64.c:165-174 *)
Definition fp2mul_x (a b : f2elm) : f2elm :=
  let x := fst a ++ snd a in let y := fst b ++ snd b in
  (call3 fp2mul434_c0_asm x y, call3 fp2mul434_c1_asm x y).
(* fpx.c:265-275 and fp_x64.c:177-186 *)
Definition fp2sqr_x (a : f2elm) : f2elm :=
  let x := fst a ++ snd a in (call2 fp2sqr434_c0_asm x, call2 fp2sqr434_c1_asm x).

Definition x64_ops : fops :=
  mkOps f2elm
    (fp2zero_w P)
    (w_one P, fpzero P)
    (upd 0 1 (fpzero P), fpzero P)
    (comp2 fpadd_x) (comp2 fpsub_x) (comp2 mp_add_x) (comp2 mp_sub_p2_x) fp2mul_x fp2sqr_x
    (fp2neg P) (fp2inv_m P fpmul_x fpadd_x) (fp2div2 P)
    (fun x => (fpadd_x (fst x) (w_one P), snd x))
    (fp2sqrt_m P fpmul_x fpadd_x fpsub_x)
    (fun x y => negb (fp2_equal_m P fpsub_x x y =? 0))
    (lt_m P fpmul_x)
    (fp2_encode_m P fpmul_x)
    (fp2_decode_m P fpmul_x (fp2zero_w P))
    (rand_word P).
