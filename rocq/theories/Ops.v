(** Operations on elements of GF(p^2) used by the curve code, as a record, so that S/ec_isogeny.c and
    S/poik.c are transcribed once and can be run both on digit arrays (WordOps.v, what the C code
    computes) and on a field (FieldOps.v, what it is meant to compute). *)
From Verif Require Import Base Out.

(** The random bytes still to be read by randombytes. *)
Definition tape := list Z.

Record fops := mkOps {
  T : Type;
  o_zero : T;                        (* {0}, fp2zero *)
  o_one : T;                         (* fp2one, poik.c:69-73 *)
  o_unit : T;                        (* the initialiser {1}: digit 0 of the real part is 1, poik.c:848 *)
  o_add : T -> T -> T;               (* fp2add *)
  o_sub : T -> T -> T;               (* fp2sub *)
  o_madd : T -> T -> T;              (* mp2_add *)
  o_msub : T -> T -> T;              (* mp2_sub_p2 *)
  o_mul : T -> T -> T;               (* fp2mul_mont *)
  o_sqr : T -> T;                    (* fp2sqr_mont *)
  o_neg : T -> T;                    (* fp2neg *)
  o_inv : T -> T;                    (* fp2inv_mont *)
  o_div2 : T -> T;                   (* fp2div2 *)
  o_add1 : T -> T;                   (* fpadd(x[0], Montgomery_one, x[0]) *)
  o_sqrt : T -> T;                   (* the output y of fp2sqrt, poik.c:139-200 *)
  o_eq : T -> T -> bool;             (* fp2_equal *)
  o_lt : T -> T -> bool;             (* the comparison of canonical_model, poik.c:492-500 *)
  o_enc : T -> list Z;               (* fp2_encode *)
  o_dec : list Z -> T;               (* fp2_decode *)
  o_rand : tape -> out (T * tape)    (* fprand on both components *)
}.

Record pt (O : fops) := mkPt { pX : T O; pZ : T O }.
Arguments mkPt {O}. Arguments pX {O}. Arguments pZ {O}.
(** poik.c:9-11 curve_proj *)
Record curve (O : fops) := mkCurve { cA : T O; cC : T O }.
Arguments mkCurve {O}. Arguments cA {O}. Arguments cC {O}.
(** poik.c:13-16 mont_iso *)
Record miso (O : fops) := mkIso { iB : T O; ir : T O; iu2 : T O }.
Arguments mkIso {O}. Arguments iB {O}. Arguments ir {O}. Arguments iu2 {O}.
