(** Specification: isomorphisms between Montgomery curves over a field, the j-invariant.
    No code of /repo is modelled here. *)
From Verif Require Import Base Fld CurveSpec.

Section ModelSpec.
Variable F : fld.
Local Open Scope fld_scope.
Implicit Types A B r u x : F.
(** x |-> (x - r)/u maps the curve with coefficient A to the one with coefficient B: the coefficients of
    fx A (u X + r) = u^3 fx B X as polynomials in X. *)
Definition iso_to A B r u : Prop :=
  u <> 0 /\ fx A r = 0 /\ u * u = 3 * (r * r) + 2 * (A * r) + 1 /\ u * B = 3 * r + A.
Definition isomorphic A B : Prop := exists r u, iso_to A B r u.
(** A nonsingular curve all of whose points of order 4 have x-coordinates in F: the roots x, x' of
    X^2 + A X + 1 are in F, and x^2 - 1, x'^2 - 1 are squares. *)
Definition full4 A : Prop :=
  A * A <> 4 /\ exists x x' v v', x + x' = - A /\ x * x' = 1 /\ v * v = x * x - 1 /\ v' * v' = x' * x' - 1.
(** 256 (A^2 - 3 C^2)^3 / (C^4 (A^2 - 4 C^2)) *)
Definition jinv A C : F :=
  let q := A * A - 3 * (C * C) in
  4 * 4 * 4 * 4 * (q * q * q) / (C * C * (C * C) * (A * A - 4 * (C * C))).
End ModelSpec.
Arguments iso_to {F}. Arguments isomorphic {F}. Arguments full4 {F}. Arguments jinv {F}.
