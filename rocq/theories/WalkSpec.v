(** Specification: walks of several isogenies of degree 2^n or 3^n, given by kernel points on the canonical models of the
    curves they visit, that never start an isogeny with the dual of the last step taken; classes of curves that such walks do
    not leave.  No code of /repo is modelled here. *)
From Verif Require Import Base Params Fld CurveSpec IsogSpec ModelSpec XSpec Poik Hashing Codec ProtoSpec.

Section WalkSpec.
Variable F : fld.
Local Open Scope fld_scope.
Implicit Types A B r u k : F.
(** A class of curves with rational points of order 4 that is closed under isomorphisms and the isogenies of degree 2, 3
    and 4.  (Over GF(p^2), p = 2^e2 3^e3 - 1, the curves with (p+1)^2 points are such a class: WordMax.max_class.) *)
Record isog_class (SS : F -> Prop) : Prop := mkClass {
  ss_full4 : forall A, SS A -> full4 A;
  ss_iso : forall A B r u, SS A -> iso_to A B r u -> SS B;
  ss_2 : forall A k, SS A -> ker2 A k -> SS (A2 k);
  ss_4 : forall A k, SS A -> ker4 A k -> SS (A4 k);
  ss_3 : forall A k, SS A -> ker3 A k -> SS (A3 A k) }.

(** Choices of isomorphisms A |-> (B, r, u). *)
Definition isos (SS : F -> Prop) (c : F -> F * F * F) : Prop :=
  forall A, SS A -> let '(B, r, u) := c A in iso_to A B r u.

Variables (canon other : F -> F * F * F) (n : nat).
(** The isogeny with kernel generated by q of exact order 2^n does not start with the step that has kernel d. *)
Definition step2 A (d : option (xl F)) (q : xl F) (A' : F) : Prop :=
  xord2 A n q /\ (forall x, d = Some x -> Nat.iter (n - 1) (dblx A) q <> x) /\ quot2 other n A q XInf = Some (A', XInf).
(** The kernel of the dual of the last step of such an isogeny is generated by (0,0) (see WalkP.dual2). *)
Inductive walk2 : F -> option (xl F) -> list (xl F) -> F -> Prop :=
| walk2_one A d q A' : step2 A d q A' -> walk2 A d [q] A'
| walk2_cons A d q A' B r u q' qs A'' : step2 A d q A' -> canon A' = (B, r, u) ->
    walk2 B (Some (isox r u (XF 0))) (q' :: qs) A'' -> walk2 A d (q :: q' :: qs) A''.

(** The same for 3^n; the kernel of the dual of the last step, with kernel k, is generated by the point with
    x = -1/(3k) (see WalkP.dual3). *)
Definition step3 A (d : option (xl F)) (q : xl F) (A' : F) (d' : xl F) : Prop :=
  xord3 A n q /\ (forall x, d = Some x -> Nat.iter (n - 1) (tplx A) q <> x) /\ chain3 n A q XInf = Some (A', XInf) /\
  exists A1 k, chain3 (n - 1) A (tplx A q) q = Some (A1, XF k) /\ d' = XF (- (1) / (3 * k)).
Inductive walk3 : F -> option (xl F) -> list (xl F) -> F -> Prop :=
| walk3_one A d q A' d' : step3 A d q A' d' -> walk3 A d [q] A'
| walk3_cons A d q A' d' B r u q' qs A'' : step3 A d q A' d' -> canon A' = (B, r, u) ->
    walk3 B (Some (isox r u d')) (q' :: qs) A'' -> walk3 A d (q :: q' :: qs) A''.

(** The composition of the isogenies of a walk: the last curve, and the image of r. *)
Fixpoint comp2 A (qs : list (xl F)) (s : xl F) : option (F * xl F) :=
  match qs with
  | [] => Some (A, s)
  | q :: qs => match quot2 other n A q s with
               | Some (A', s') => match qs with
                                  | [] => Some (A', s')
                                  | _ => let '(B, r, u) := canon A' in comp2 B qs (isox r u s')
                                  end
               | None => None
               end
  end.
Fixpoint comp3 A (qs : list (xl F)) (s : xl F) : option (F * xl F) :=
  match qs with
  | [] => Some (A, s)
  | q :: qs => match chain3 n A q s with
               | Some (A', s') => match qs with
                                  | [] => Some (A', s')
                                  | _ => let '(B, r, u) := canon A' in comp3 B qs (isox r u s')
                                  end
               | None => None
               end
  end.
End WalkSpec.
Arguments isog_class {F}. Arguments isos {F}. Arguments step2 {F}. Arguments walk2 {F}. Arguments step3 {F}. Arguments walk3 {F}.
Arguments ss_full4 {F SS}. Arguments ss_iso {F SS}. Arguments ss_2 {F SS}. Arguments ss_4 {F SS}. Arguments ss_3 {F SS}.
Arguments comp2 {F}. Arguments comp3 {F}.

(** ** Responses *)
Section Open.
Variable F : fld.
Variables (canon other : F -> F * F * F) (enc : F -> list Z) (dec : list Z -> F).
Variable K : pok.
Notation P := (fpar K).
(** The commitment to the curve with coefficient A under the nonce r; the points of a chain. *)
Definition commit (r : list Z) (A : F) : list Z := hash_hiding K r (enc (jinv A k1)).
Definition pts (f : nat -> list Z) (k : nat) : list (xl F) := map (fun i => XF (dec (f i))) (seq 0 k).
(** The response r opens the commitment pair (h2, h3) for the public curves with coefficients A0, A1; [pass a]: the packed
    curve a passed the curve check. *)
Definition opens (pass : list Z -> Prop) (A0 A1 : F) (r : response) (h2 h3 : list Z) : Prop :=
  match int8 (r_tag r) with
  | -1 => exists A2, walk3 canon (e3 P) A0 None (pts (left_x K r) (height K)) A2 /\ h2 = commit (left_r2 K r) A2 /\ h3 = left_h3 K r
  | 0 => pass (bottom_E2 K r) /\ exists A3, walk2 canon other (e2 P) (dec (bottom_E2 K r)) None (pts (bottom_x K r) (width K)) A3 /\
           h2 = commit (bottom_r2 K r) (dec (bottom_E2 K r)) /\ h3 = commit (bottom_r3 K r) A3
  | 1 => exists A3, walk3 canon (e3 P) A1 None (pts (right_x K r) (height K)) A3 /\ h2 = right_h2 K r /\ h3 = commit (right_r3 K r) A3
  | _ => False
  end.
(** A path between the public curves: from A0 by a walk of degree a power of 3, an isomorphism, a walk of degree a power of
    2, an isomorphism, and a walk of degree a power of 3 backwards to A1. *)
Definition linked (A0 A1 : F) : Prop :=
  exists l b r A2 B2 B3 A3, walk3 canon (e3 P) A0 None l A2 /\ isomorphic A2 B2 /\ walk2 canon other (e2 P) B2 None b B3 /\ isomorphic B3 A3 /\
    walk3 canon (e3 P) A1 None r A3 /\ length l = height K /\ length b = width K /\ length r = height K.
End Open.
Arguments commit {F}. Arguments pts {F}. Arguments opens {F}. Arguments linked {F}.
