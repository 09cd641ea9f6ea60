(** Specification: the line of x-coordinates of a Montgomery curve.  A value stands for a point up to sign and
    up to the twist (the curves B y^2 = x^3 + A x^2 + x with different B).  Multiplication by 2 and 3, the isogenies of
    degree 2, 3 and 4, and step-by-step isogeny chains.  No code of /repo is modelled here. *)
From Verif Require Import Base Fld CurveSpec IsogSpec ModelSpec.

Inductive xl (F : fld) : Type := XInf | XF (x : K F).
Arguments XInf {F}. Arguments XF {F}.
Definition xof {F : fld} (M : point F) : xl F := match M with Inf => XInf | Aff x _ => XF x end.
(** (X : Z) are projective coordinates of q. *)
Definition rep {F : fld} (X Z : F) (q : xl F) : Prop :=
  match q with XInf => X <> k0 /\ Z = k0 | XF x => Z <> k0 /\ X = kmul x Z end.

Section XSpec.
Variable F : fld.
Local Open Scope fld_scope.
Implicit Types A k x : F.
Implicit Types q : xl F.
(** x-coordinates of 2 M and 3 M. *)
Definition dblx A q : xl F :=
  match q with
  | XInf => XInf
  | XF x => if kdec (fx A x) 0 then XInf else XF ((x * x - 1) * (x * x - 1) / (4 * fx A x))
  end.
Definition div3 A x : F := 3 * (x * x * (x * x)) + 4 * (A * (x * x * x)) + 2 * (3 * (x * x)) - 1.
Definition num3 A x : F := x * x * (x * x) - 2 * (3 * (x * x)) - 4 * (A * x) - 3.
Definition tplx A q : xl F :=
  match q with
  | XInf => XInf
  | XF x => if kdec (div3 A x) 0 then XInf else XF (x * (num3 A x * num3 A x) / (div3 A x * div3 A x))
  end.
(** Isogenies with kernel generated by a point with x-coordinate k. *)
Definition phi2x k q : xl F :=
  match q with XInf => XInf | XF x => if kdec x k then XInf else XF (x * (k * x - 1) / (x - k)) end.
Definition phi3x k q : xl F :=
  match q with XInf => XInf | XF x => if kdec x k then XInf else XF (x * ((k * x - 1) * (k * x - 1)) / ((x - k) * (x - k))) end.
Definition phi4x k q : xl F :=
  match q with
  | XInf => XInf
  | XF x => if kdec x k then XInf else if kdec (2 * (k * x)) (k * k + 1) then XInf
      else XF (- (x * ((k * k + 1) * x - 2 * k) * ((k * x - 1) * (k * x - 1))) / ((x - k) * (x - k) * (2 * (k * x) - k * k - 1)))
  end.
(** k generates a kernel of order 2 (other than (0,0)), 3, 4 (not above (0,0)). *)
Definition ker2 A k : Prop := k <> 0 /\ dblx A (XF k) = XInf.
Definition ker3 A k : Prop := tplx A (XF k) = XInf.
Definition ker4 A k : Prop := exists m, m <> 0 /\ dblx A (XF k) = XF m /\ dblx A (XF m) = XInf.

(** q has exact order 2^n, 3^n. *)
Definition xord2 A (n : nat) q : Prop := Nat.iter n (dblx A) q = XInf /\ (forall i, (i < n)%nat -> Nat.iter i (dblx A) q <> XInf).
Definition xord3 A (n : nat) q : Prop := Nat.iter n (tplx A) q = XInf /\ (forall i, (i < n)%nat -> Nat.iter i (tplx A) q <> XInf).

(** The quotient by the group of order 4^n generated by q, one step of degree 4 after the other; the image of r.
    [None]: a kernel point is infinity. *)
Fixpoint chain4 (n : nat) A q r : option (F * xl F) :=
  match n with
  | O => Some (A, r)
  | S n => match Nat.iter (2 * n) (dblx A) q with
           | XF k => chain4 n (A4 k) (phi4x k q) (phi4x k r)
           | XInf => None
           end
  end.
(** The same with n steps of degree 3. *)
Fixpoint chain3 (n : nat) A q r : option (F * xl F) :=
  match n with
  | O => Some (A, r)
  | S n => match Nat.iter n (tplx A) q with
           | XF k => chain3 n (A3 A k) (phi3x k q) (phi3x k r)
           | XInf => None
           end
  end.
(** The quotient by the group of order 2^n generated by q: one step of degree 2 if n is odd, then degree 4. *)
Definition chain2 (n : nat) A q r : option (F * xl F) :=
  if Nat.odd n then
    match Nat.iter (n - 1) (dblx A) q with
    | XF k => chain4 (n / 2) (A2 k) (phi2x k q) (phi2x k r)
    | XInf => None
    end
  else chain4 (n / 2) A q r.
(** The map of x-coordinates of an isomorphism (ModelSpec.iso_to). *)
Definition isox (r u : F) q : xl F := match q with XInf => XInf | XF x => XF ((x - r) / u) end.
(** The same after an isomorphism to a model in which 2^(n-1) q is not (0,0), as the steps of degree 2 and 4 need:
    A' is the codomain and r' the image of r. *)
Definition quotient2 (n : nat) A q r (A' : F) (r' : xl F) : Prop :=
  exists A0 r0 u0, iso_to A A0 r0 u0 /\ Nat.iter (n - 1) (dblx A0) (isox r0 u0 q) <> XF 0 /\
    (Nat.iter (n - 1) (dblx A) q <> XF 0 -> A0 = A /\ r0 = 0 /\ u0 = 1) /\
    chain2 n A0 (isox r0 u0 q) (isox r0 u0 r) = Some (A', r').
(** The same for a given choice [other] of a model in which (0,0) is another point (coefficient, r, u), used when
    2^(n-1) q is (0,0). *)
Definition quot2 (other : F -> F * F * F) (n : nat) A q r : option (F * xl F) :=
  let '(A0, r0, u0) := match Nat.iter (n - 1) (dblx A) q with
                       | XF x => if kdec x 0 then other A else (A, 0, 1)
                       | XInf => (A, 0, 1)
                       end in
  chain2 n A0 (isox r0 u0 q) (isox r0 u0 r).
End XSpec.
Arguments dblx {F}. Arguments tplx {F}. Arguments phi2x {F}. Arguments phi3x {F}. Arguments phi4x {F}. Arguments div3 {F}. Arguments num3 {F}.
Arguments ker2 {F}. Arguments ker3 {F}. Arguments ker4 {F}. Arguments xord2 {F}. Arguments xord3 {F}.
Arguments chain2 {F}. Arguments chain3 {F}. Arguments chain4 {F}.
Arguments isox {F}. Arguments quotient2 {F}. Arguments quot2 {F}.
