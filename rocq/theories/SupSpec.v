(** Specification: curves with (p+1)^2 points over a field with p^2 elements.  No code of /repo is modelled here. *)
From Verif Require Import Base Fld CurveSpec OrderSpec.

(** y^2 = x^3 + A x^2 + x is nonsingular and has (p+1)^2 points.  Over GF(p^2) these are the supersingular curves whose Frobenius is -p. *)
Definition maximal {F : fld} (p : nat) (A : F) : Prop :=
  kmul A A <> (4%F) /\ exists l, all_points A k1 l /\ length l = ((p + 1) * (p + 1))%nat.
