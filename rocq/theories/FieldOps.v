(** The operation record over a field: what the C code is meant to compute.  No code of /repo is
    modelled here. *)
From Coq Require Import Znumtheory.
From Verif Require Import Base Digits Out Params Fp Wf Fld FpRep FpMisc FpMiscP Ops.

(** Any field, with the operations that are not field operations left open. *)
Definition fld_ops (F : fld) (unit : F) (sqrt : F -> F) (lt : F -> F -> bool) (enc : F -> list Z) (dec : list Z -> F)
  (rnd : tape -> out (F * tape)) : fops :=
  mkOps (K F) k0 k1 unit kadd ksub kadd ksub kmul (fun x => kmul x x) kopp kinv
    (fun x => kdiv x (kadd k1 k1)) (fun x => kadd x k1) sqrt
    (fun x y => if kdec x y then true else false) lt enc dec rnd.

Section FieldOps.
Variable P : params.
Hypothesis HW : Wf P.
Hypothesis Hp : prime (par_p P).
Local Notation p := (par_p P).
Local Notation FP := (FP P HW Hp).
Local Notation FP2 := (FP2 P HW Hp).

(** A square root in GF(p^2), p = 3 mod 4: for b = 0 a root of a or of -a in GF(p), otherwise the
    formula with v = (a + sqrt(a^2+b^2))/2. *)
Definition qsqrt (x : K2 FP) : K2 FP :=
  let (a, b) := x in
  if Fp_dec p b f0 then
    let t := fpow a ((p + 1) / 4) in
    if Fp_dec p (fmul t t) a then (t, f0) else (f0, t)
  else
    let s := fpow (fadd (fmul a a) (fmul b b)) ((p + 1) / 4) in
    let v := fdiv (fadd a s) (mkF p 2) in
    let t2 := fpow v ((p - 3) / 4) in
    let t1 := fmul v t2 in
    let t2 := fdiv (fmul t2 b) (mkF p 2) in
    if Fp_dec p v (fmul t1 t1) then (t1, t2) else (t2, fopp t1).
(** Lexicographic order on (real part, imaginary part) of the least non-negative representatives. *)
Definition qlt (x y : K2 FP) : bool :=
  (fval (fst x) <? fval (fst y)) || ((fval (fst x) =? fval (fst y)) && (fval (snd x) <? fval (snd y))).
(** Little-endian bytes of the two least non-negative representatives. *)
Definition qenc (x : K2 FP) : list Z :=
  toB 256 (fp_bytes P) (fval (fst x)) ++ toB 256 (fp_bytes P) (fval (snd x)).
(** Field elements drawn by fprand: the masked bytes are the Montgomery form of the result. *)
Definition qrand (tp : tape) : out (K2 FP * tape) :=
  let k := felm_bytes P in
  if (length tp <? 2 * k)%nat then NoTape
  else let b := map (fun x => x mod 256) tp in
       Ok ((toF P (fprand P (firstn k b)), toF P (fprand P (firstn k (skipn k b)))), skipn (2 * k) tp).
Definition field_ops : fops :=
  fld_ops FP2 (toF P (vunit P), f0) qsqrt qlt qenc (dec_val P HW Hp) qrand.
End FieldOps.
