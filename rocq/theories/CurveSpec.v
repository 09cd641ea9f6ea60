(** Specification: Montgomery curves B y^2 = x^3 + A x^2 + x over a field, the chord-and-tangent law and
    x-only projective coordinates.  No code of /repo is modelled here. *)
From Verif Require Import Base Fld Ops FieldOps.

Declare Scope fld_scope. Delimit Scope fld_scope with F.
Notation "x + y" := (kadd x y) : fld_scope. Notation "x * y" := (kmul x y) : fld_scope.
Notation "x - y" := (ksub x y) : fld_scope. Notation "- x" := (kopp x) : fld_scope.
Notation "x / y" := (kdiv x y) : fld_scope.
Notation "0" := k0 : fld_scope. Notation "1" := k1 : fld_scope.
Notation "2" := (kadd k1 k1) : fld_scope. Notation "3" := (kadd k1 (kadd k1 k1)) : fld_scope.
Notation "4" := (kmul (kadd k1 k1) (kadd k1 k1)) : fld_scope.

Section Curve.
Variable F : fld.
Local Open Scope fld_scope.
Implicit Types A B x y : F.

Inductive point : Type := Inf | Aff (x y : F).
Variables A B : F.
(** The right hand side of the curve equation. *)
Definition fx (x : F) : F := x * x * x + A * (x * x) + x.
Definition on (M : point) : Prop := match M with Inf => True | Aff x y => B * (y * y) = fx x end.
Definition neg (M : point) : point := match M with Inf => Inf | Aff x y => Aff x (- y) end.
(** Third intersection with the line of slope s through (x1, y1) and a point with coordinate x2. *)
Definition chord (s x1 y1 x2 : F) : point :=
  let x3 := B * (s * s) - A - x1 - x2 in Aff x3 (s * (x1 - x3) - y1).
Definition padd (M N : point) : point :=
  match M, N with
  | Inf, _ => N
  | _, Inf => M
  | Aff x1 y1, Aff x2 y2 =>
      if kdec x1 x2 then
        if kdec (y1 + y2) 0 then Inf
        else chord ((3 * (x1 * x1) + 2 * (A * x1) + 1) / (2 * (B * y1))) x1 y1 x1
      else chord ((y2 - y1) / (x2 - x1)) x1 y1 x2
  end.
(** n-fold sum *)
Fixpoint pmul (n : nat) (M : point) : point := match n with O => Inf | S n => padd M (pmul n M) end.
End Curve.
Arguments Inf {F}. Arguments Aff {F}. Arguments neg {F}. Arguments on {F}. Arguments padd {F}. Arguments pmul {F}.
Arguments fx {F}. Arguments chord {F}.

(** (X : Z) stands for the point M up to sign. *)
Definition xz {F : fld} (X Z : F) (M : point F) : Prop :=
  match M with
  | Inf => X <> k0 /\ Z = k0
  | Aff x _ => Z <> k0 /\ X = kmul x Z
  end.
