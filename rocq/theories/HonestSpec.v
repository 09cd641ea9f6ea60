(** Specification: walks on the curves as computed (no canonical models in between), as an honest prover makes them, and
    what it means for the tables of curves and points in memory to hold such a walk.  No code of /repo is modelled here. *)
From Verif Require Import Base Params Fld CurveSpec IsogSpec ModelSpec XSpec WalkSpec.

Section HonestSpec.
Variable F : fld.
Variables (other : F -> F * F * F) (n : nat).
Local Open Scope fld_scope.
(** One isogeny of degree 2^n (3^n) after the other: the curves and kernel points, and the last curve; no isogeny starts
    with the dual of the last step before it ([step2], [step3] of WalkSpec.v). *)
Inductive path2 : F -> option (xl F) -> list (F * xl F) -> F -> Prop :=
| path2_nil A d : path2 A d [] A
| path2_cons A d q A' l A'' : step2 other n A d q A' -> path2 A' (Some (XF 0)) l A'' -> path2 A d ((A, q) :: l) A''.
Inductive path3 : F -> option (xl F) -> list (F * xl F) -> F -> Prop :=
| path3_nil A d : path3 A d [] A
| path3_cons A d q A' d' l A'' : step3 n A d q A' d' -> path3 A' (Some d') l A'' -> path3 A d ((A, q) :: l) A''.
(** The curves with j-invariant 0 or 1728: those with more automorphisms than +-1. *)
Definition special_j (A : F) : Prop := jinv A 1 = 0 \/ jinv A 1 = 4 * 4 * 4 * (3 * 3 * 3).
End HonestSpec.
Arguments path2 {F}. Arguments path3 {F}. Arguments special_j {F}.
