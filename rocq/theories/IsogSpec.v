(** Specification: isogenies of degree 2, 3 and 4 between Montgomery curves, as maps on points.
    The kernel is generated by the point with coordinate k.  No code of /repo is modelled here. *)
From Verif Require Import Base Fld CurveSpec.

Section IsogSpec.
Variable F : fld.
Local Open Scope fld_scope.
Implicit Types k x y A B : F.
(** Points equal up to sign. *)
Definition xeq (M N : point F) : Prop :=
  match M, N with Inf, Inf => True | Aff x _, Aff x' _ => x = x' | _, _ => False end.

(** Degree 2: kernel {Inf, (k, 0)}, k <> 0; codomain coefficients 2 - 4 k^2 and k B. *)
Definition phi2 k (M : point F) : point F :=
  match M with
  | Inf => Inf
  | Aff x y => if kdec x k then Inf
      else Aff (x * (k * x - 1) / (x - k)) (y * ((k * (x * x) - 2 * (k * k * x) + k) / ((x - k) * (x - k))))
  end.
Definition A2 k : F := 2 - 4 * (k * k).
Definition B2 k B : F := k * B.

(** Degree 3: kernel {Inf, (k, +-y)}; codomain (A k - 6 k^2 + 6) k and k^2 B. *)
Definition phi3 k (M : point F) : point F :=
  match M with
  | Inf => Inf
  | Aff x y => if kdec x k then Inf
      else Aff (x * ((k * x - 1) * (k * x - 1)) / ((x - k) * (x - k)))
               (y * ((k * x - 1) * (k * (x * x) - 3 * (k * k * x) + x + k) / ((x - k) * (x - k) * (x - k))))
  end.
Definition A3 A k : F := (A * k - (3 * 2) * (k * k) + 3 * 2) * k.
Definition B3 k B : F := k * k * B.

(** Degree 4: kernel {Inf, (k, +-y), (m, 0)} with 2 k m = k^2 + 1; codomain 4 k^4 - 2 and -k (k^2 + 1) B / 2. *)
Definition phi4 k (M : point F) : point F :=
  match M with
  | Inf => Inf
  | Aff x y => if kdec x k then Inf else if kdec (2 * (k * x)) (k * k + 1) then Inf
      else
        let d := 2 * (k * x) - k * k - 1 in
        Aff (- (x * ((k * k + 1) * x - 2 * k) * ((k * x - 1) * (k * x - 1))) / ((x - k) * (x - k) * d))
            (y * (- (2 * (k * k)) * ((k * x - 1) *
               ((k * k + 1) * (x * x * x * x) - 4 * ((k * k * k + k) * (x * x * x))
                + 2 * ((k * k * k * k + (4 + 1) * (k * k)) * (x * x)) - 4 * ((k * k * k + k) * x) + k * k + 1))
               / ((x - k) * (x - k) * (x - k) * (d * d))))
  end.
Definition A4 k : F := 4 * (k * k * (k * k)) - 2.
Definition B4 k B : F := - (k * (k * k + 1) * B) / 2.
End IsogSpec.
Arguments xeq {F}. Arguments phi2 {F}. Arguments phi3 {F}. Arguments phi4 {F}.
Arguments A2 {F}. Arguments A3 {F}. Arguments A4 {F}. Arguments B2 {F}. Arguments B3 {F}. Arguments B4 {F}.
