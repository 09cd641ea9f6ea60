(** Specification: orders of points, independence, numbers of points.  No code of /repo is modelled here. *)
From Verif Require Import Base Fld CurveSpec.

Section OrderSpec.
Variable F : fld.
Variables A B : F.
(** The n-th multiple of M is infinity exactly when m divides n. *)
Definition has_order (M : point F) (m : nat) : Prop := forall n, pmul A B n M = Inf <-> Nat.divide m n.
(** Four points that generate a subgroup of order m1 m2 m3 m4. *)
Definition independent4 (M1 M2 M3 M4 : point F) (m1 m2 m3 m4 : nat) : Prop :=
  forall n1 n2 n3 n4,
    padd A B (padd A B (pmul A B n1 M1) (pmul A B n2 M2)) (padd A B (pmul A B n3 M3) (pmul A B n4 M4)) = Inf ->
    Nat.divide m1 n1 /\ Nat.divide m2 n2 /\ Nat.divide m3 n3 /\ Nat.divide m4 n4.
(** The list of all points of the curve. *)
Definition all_points (l : list (point F)) : Prop := NoDup l /\ forall M, In M l <-> on A B M.
End OrderSpec.
Arguments has_order {F}. Arguments independent4 {F}. Arguments all_points {F}.
(** The interval of the Hasse bound for a curve over a field with p^2 elements: |n - (p^2 + 1)| <= 2 p. *)
Definition hasse (p n : Z) : Prop := Z.abs (n - (p * p + 1)) <= 2 * p.
