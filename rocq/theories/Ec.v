(** Model of S/ec_isogeny.c: x-only arithmetic and small isogenies, over an operation record.
    Each line of a C function is one [let]; a C variable that is overwritten keeps its name. *)
From Verif Require Import Base Out Ops.

Section Ec.
Variable O : fops.
Notation add := (o_add O). Notation sub := (o_sub O). Notation madd := (o_madd O).
Notation msub := (o_msub O). Notation mul := (o_mul O). Notation sqr := (o_sqr O).
Notation T := (T O). Notation pt := (pt O).

(* ec_isogeny.c:12-28 *)
Definition xDBL (P : pt) (A24plus C24 : T) : pt :=
  let t0 := msub (pX P) (pZ P) in
  let t1 := madd (pX P) (pZ P) in
  let t0 := sqr t0 in
  let t1 := sqr t1 in
  let QZ := mul C24 t0 in
  let QX := mul t1 QZ in
  let t1 := msub t1 t0 in
  let t0 := mul A24plus t1 in
  let QZ := madd QZ t0 in
  let QZ := mul QZ t1 in
  mkPt QX QZ.

(* ec_isogeny.c:31-41 *)
Definition xDBLe (P : pt) (A24plus C24 : T) (e : nat) : pt :=
  Nat.iter e (fun Q => xDBL Q A24plus C24) P.

(* ec_isogeny.c:45-53; result (A24plus, C24) *)
Definition get_2_isog (P : pt) : T * T :=
  let A24plus := sqr (pX P) in
  let C24 := sqr (pZ P) in
  let A24plus := msub C24 A24plus in
  (A24plus, C24).

(* ec_isogeny.c:56-73 *)
Definition eval_2_isog (P Q : pt) : pt :=
  let t0 := madd (pX Q) (pZ Q) in
  let t1 := msub (pX Q) (pZ Q) in
  let t2 := madd (pX P) (pZ P) in
  let t3 := msub (pX P) (pZ P) in
  let t0 := mul t0 t3 in
  let t1 := mul t1 t2 in
  let t2 := madd t0 t1 in
  let t3 := msub t0 t1 in
  mkPt (mul (pX P) t2) (mul (pZ P) t3).

(** f2elm_t coeff[3] *)
Record coeff3 := mkCo { co0 : T; co1 : T; co2 : T }.

(* ec_isogeny.c:77-93; result (A24plus, C24) and the coefficients *)
Definition get_4_isog (P : pt) : (T * T) * coeff3 :=
  let coeff1 := msub (pX P) (pZ P) in
  let coeff2 := madd (pX P) (pZ P) in
  let coeff0 := sqr (pZ P) in
  let coeff0 := madd coeff0 coeff0 in
  let C24 := sqr coeff0 in
  let coeff0 := madd coeff0 coeff0 in
  let A24plus := sqr (pX P) in
  let A24plus := madd A24plus A24plus in
  let A24plus := sqr A24plus in
  ((A24plus, C24), mkCo coeff0 coeff1 coeff2).

(* ec_isogeny.c:96-118 *)
Definition eval_4_isog (coeff : coeff3) (P : pt) : pt :=
  let t0 := madd (pX P) (pZ P) in
  let t1 := msub (pX P) (pZ P) in
  let PX := mul t0 (co1 coeff) in
  let PZ := mul t1 (co2 coeff) in
  let t0 := mul t0 t1 in
  let t0 := mul (co0 coeff) t0 in
  let t1 := madd PX PZ in
  let PZ := msub PX PZ in
  let t1 := sqr t1 in
  let PZ := sqr PZ in
  let PX := madd t1 t0 in
  let t0 := msub PZ t0 in
  mkPt (mul PX t1) (mul PZ t0).

(* ec_isogeny.c:121-149 *)
Definition xTPL (P : pt) (A24minus A24plus : T) : pt :=
  let t0 := msub (pX P) (pZ P) in
  let t2 := sqr t0 in
  let t1 := madd (pX P) (pZ P) in
  let t3 := sqr t1 in
  let t4 := madd (pX P) (pX P) in
  let t0 := madd (pZ P) (pZ P) in
  let t1 := sqr t4 in
  let t1 := msub t1 t3 in
  let t1 := msub t1 t2 in
  let t5 := mul A24plus t3 in
  let t3 := mul t3 t5 in
  let t6 := mul A24minus t2 in
  let t2 := mul t2 t6 in
  let t3 := msub t2 t3 in
  let t2 := msub t5 t6 in
  let t1 := mul t1 t2 in
  let t2 := add t3 t1 in
  let t2 := sqr t2 in
  let QX := mul t4 t2 in
  let t1 := sub t3 t1 in
  let t1 := sqr t1 in
  let QZ := mul t0 t1 in
  mkPt QX QZ.

(* ec_isogeny.c:152-162 *)
Definition xTPLe (P : pt) (A24minus A24plus : T) (e : nat) : pt :=
  Nat.iter e (fun Q => xTPL Q A24minus A24plus) P.

(* ec_isogeny.c:166-187; result (A24minus, A24plus) and the coefficients; coeff[2] is not written,
   [o_zero] stands for its (unused) content *)
Definition get_3_isog (P : pt) : (T * T) * coeff3 :=
  let coeff0 := msub (pX P) (pZ P) in
  let t0 := sqr coeff0 in
  let coeff1 := madd (pX P) (pZ P) in
  let t1 := sqr coeff1 in
  let t3 := madd (pX P) (pX P) in
  let t3 := sqr t3 in
  let t2 := sub t3 t0 in
  let t3 := sub t3 t1 in
  let t4 := madd t0 t3 in
  let t4 := madd t4 t4 in
  let t4 := madd t1 t4 in
  let A24minus := mul t2 t4 in
  let t4 := madd t1 t2 in
  let t4 := madd t4 t4 in
  let t4 := madd t0 t4 in
  let A24plus := mul t3 t4 in
  ((A24minus, A24plus), mkCo coeff0 coeff1 (o_zero O)).

(* ec_isogeny.c:190-208 *)
Definition eval_3_isog (coeff : coeff3) (Q : pt) : pt :=
  let t0 := madd (pX Q) (pZ Q) in
  let t1 := msub (pX Q) (pZ Q) in
  let t0 := mul (co0 coeff) t0 in
  let t1 := mul (co1 coeff) t1 in
  let t2 := madd t0 t1 in
  let t0 := msub t1 t0 in
  let t2 := sqr t2 in
  let t0 := sqr t0 in
  mkPt (mul (pX Q) t2) (mul (pZ Q) t0).

(* ec_isogeny.c:211-225 *)
Definition inv_3_way (z1 z2 z3 : T) : T * T * T :=
  let t0 := mul z1 z2 in
  let t1 := mul z3 t0 in
  let t1 := o_inv O t1 in
  let t2 := mul z3 t1 in
  let z3 := mul t0 t1 in
  let t0 := mul t2 z2 in
  let z2 := mul t2 z1 in
  (t0, z2, z3).

(* ec_isogeny.c:228-250 *)
Definition get_A (xP xQ xR : T) : T :=
  let one := o_one O in
  let t1 := add xP xQ in
  let t0 := mul xP xQ in
  let A := mul xR t1 in
  let A := add t0 A in
  let t0 := mul t0 xR in
  let A := sub A one in
  let t0 := add t0 t0 in
  let t1 := add t1 xR in
  let t0 := add t0 t0 in
  let A := sqr A in
  let t0 := o_inv O t0 in
  let A := mul A t0 in
  sub A t1.

(* ec_isogeny.c:253-276 *)
Definition j_inv (A C : T) : T :=
  let jinv := sqr A in
  let t1 := sqr C in
  let t0 := add t1 t1 in
  let t0 := sub jinv t0 in
  let t0 := sub t0 t1 in
  let jinv := sub t0 t1 in
  let t1 := sqr t1 in
  let jinv := mul jinv t1 in
  let t0 := add t0 t0 in
  let t0 := add t0 t0 in
  let t1 := sqr t0 in
  let t0 := mul t0 t1 in
  let t0 := add t0 t0 in
  let t0 := add t0 t0 in
  let jinv := o_inv O jinv in
  mul jinv t0.

(* ec_isogeny.c:279-305; results P, Q *)
Definition xDBLADD (P Q : pt) (XPQ ZPQ A24 : T) : pt * pt :=
  let t0 := madd (pX P) (pZ P) in
  let t1 := msub (pX P) (pZ P) in
  let PX := sqr t0 in
  let t2 := msub (pX Q) (pZ Q) in
  let QX := madd (pX Q) (pZ Q) in
  let t0 := mul t0 t2 in
  let PZ := sqr t1 in
  let t1 := mul t1 QX in
  let t2 := msub PX PZ in
  let PX := mul PX PZ in
  let QX := mul A24 t2 in
  let QZ := msub t0 t1 in
  let PZ := madd QX PZ in
  let QX := madd t0 t1 in
  let PZ := mul PZ t2 in
  let QZ := sqr QZ in
  let QX := sqr QX in
  let QZ := mul QZ XPQ in
  let QX := mul QX ZPQ in
  (mkPt PX PZ, mkPt QX QZ).

(* ec_isogeny.c:308-330 swap_points with option = -(digit_t) b; that the masked exchange is this
   conditional is FpMiscP.swap_digits_spec *)
Definition swap_points (b : bool) (P Q : pt) : pt * pt := if b then (Q, P) else (P, Q).
End Ec.
Arguments mkCo {O}. Arguments co0 {O}. Arguments co1 {O}. Arguments co2 {O}.
