(** Changes of model are group isomorphisms. *)
From Coq Require Import Field.
From Verif Require Import Base Fld Ops FieldOps CurveSpec ModelSpec FldCurve.
Set Bullet Behavior "Strict Subproofs".

Section Iso.
Variable F : fld.
Hypothesis two : (kadd k1 k1 : F) <> k0.
Local Open Scope fld_scope.
Definition kth_i := kth F.
Add Field KFi : kth_i.
(** (x, y) |-> ((x - r)/u, y), from B y^2 = fx A x to (B/u^3) y^2 = fx A' x. *)
Definition iso_pt (r u : F) (M : point F) : point F :=
  match M with Inf => Inf | Aff x y => Aff ((x - r) / u) y end.
Variables A A' B r u : F.
Hypothesis HI : iso_to A A' r u.
Let B' := B / (u * u * u).
Let Hu : u <> 0 := proj1 HI.
Ltac nz := repeat match goal with |- _ /\ _ => split end; auto.

Lemma iso_coeff : A' = (3 * r + A) / u.
Proof. pose proof HI as (N & _ & _ & E). rewrite <- E. field. nz. Qed.
Lemma iso_fx (x : F) : fx A x = u * u * u * fx A' ((x - r) / u).
Proof.
  pose proof HI as (N & E1 & E2 & E3). unfold fx in *. rewrite iso_coeff.
  transitivity (x * x * x + A * (x * x) + x - (r * r * r + A * (r * r) + r)); [rewrite E1; ring|].
  transitivity ((x - r) * (x - r) * (x - r) + (3 * r + A) * ((x - r) * (x - r)) + (3 * (r * r) + 2 * (A * r) + 1) * (x - r)); [ring|].
  rewrite <- E2. field. nz.
Qed.
Lemma iso_on M : on A B M -> on A' B' (iso_pt r u M).
Proof.
  destruct M as [|x y]; cbn [on iso_pt]; auto. intros E. unfold B'.
  transitivity (B * (y * y) / (u * u * u)); [field; nz|]. rewrite E, (iso_fx x). field. nz.
Qed.
Lemma iso_on_inv M : on A' B' (iso_pt r u M) -> on A B M.
Proof.
  destruct M as [|x y]; cbn [on iso_pt]; auto. intros E. rewrite (iso_fx x), <- E. unfold B'. field. nz.
Qed.
Lemma iso_neg M : iso_pt r u (neg M) = neg (iso_pt r u M).
Proof. now destruct M. Qed.
Lemma iso_inj M N : iso_pt r u M = iso_pt r u N -> M = N.
Proof.
  destruct M as [|x y], N as [|x' y']; cbn [iso_pt]; try discriminate; auto.
  intros E. injection E as E1 E2. f_equal; auto.
  transitivity (u * ((x - r) / u) + r); [field; nz|]. rewrite E1. field. nz.
Qed.
Lemma iso_inf M : iso_pt r u M = Inf <-> M = Inf.
Proof. destruct M; cbn; split; congruence. Qed.
Lemma iso_surj M' : exists M, iso_pt r u M = M'.
Proof.
  destruct M' as [|x y]; [now exists Inf|]. exists (Aff (u * x + r) y). cbn. f_equal. field. nz.
Qed.
Lemma chord_iso (s x1 y1 x2 : F) :
  iso_pt r u (chord A B s x1 y1 x2) = chord A' B' (u * s) ((x1 - r) / u) y1 ((x2 - r) / u).
Proof.
  unfold chord, iso_pt, B'. rewrite iso_coeff. f_equal; field; nz.
Qed.
Lemma iso_padd M N : B <> 0 -> iso_pt r u (padd A B M N) = padd A' B' (iso_pt r u M) (iso_pt r u N).
Proof.
  intros HB. destruct M as [|x1 y1], N as [|x2 y2]; auto. cbn [padd iso_pt].
  destruct (kdec x1 x2) as [<-|Nx]; destruct (kdec ((x1 - r) / u) _) as [E|N].
  - destruct (kdec (y1 + y2) 0) as [|Ny]; auto.
    match goal with |- ?a = ?b => change (iso_pt r u (chord A B ((3 * (x1 * x1) + 2 * (A * x1) + 1) / (2 * (B * y1))) x1 y1 x1) = b) end.
    destruct (kdec y1 0) as [->|Ny1].
    + (* not used on the curve; the totalised division gives the same value *)
      rewrite chord_iso. f_equal. replace (2 * (B * 0)) with (0 : F) by ring. replace (2 * (B' * 0)) with (0 : F) by ring.
      transitivity (0 : F); [|symmetry]; rewrite (Field_theory.Fdiv_def (kth F)), (kinv0 F); ring.
    + rewrite chord_iso. f_equal.
      pose proof HI as (_ & E1 & E2 & E3).
      transitivity (u * (3 * (x1 * x1) + 2 * (A * x1) + 1) / (2 * (B * y1))); [field; nz|].
      transitivity ((u * u * u) * (3 * ((x1 - r) / u * ((x1 - r) / u)) + 2 * (A' * ((x1 - r) / u)) + 1) / (2 * (B * y1))).
      * rewrite iso_coeff.
        transitivity (u * (3 * (x1 * x1) + 2 * (A * x1) + 1 - (3 * (r * r) + 2 * (A * r) + 1) + u * u) / (2 * (B * y1))).
        { rewrite E2. field. nz. }
        field. nz.
      * unfold B'. field. nz.
  - exfalso. now apply N.
  - exfalso. apply Nx. transitivity (u * ((x1 - r) / u) + r); [field; nz|]. rewrite E. field. nz.
  - change (iso_pt r u (chord A B ((y2 - y1) / (x2 - x1)) x1 y1 x2) = chord A' B' ((y2 - y1) / ((x2 - r) / u - (x1 - r) / u)) ((x1 - r) / u) y1 ((x2 - r) / u)).
    assert (N1 : x2 - x1 <> 0) by (apply sub_nz; congruence).
    rewrite chord_iso. f_equal.
    replace ((x2 - r) / u - (x1 - r) / u) with ((x2 - x1) / u) by (field; nz). field. nz.
Qed.
Lemma iso_pmul n M : B <> 0 -> iso_pt r u (pmul A B n M) = pmul A' B' n (iso_pt r u M).
Proof. intros HB. induction n as [|n IH]; cbn [pmul]; auto. now rewrite iso_padd, IH. Qed.
Lemma iso_cod_nz : B <> 0 -> B' <> 0.
Proof.
  intros N E. apply N. transitivity (B' * (u * u * u)); [unfold B'; field; nz|]. rewrite E. ring.
Qed.
End Iso.

Lemma iso_hom (F : fld) (A A' B r u : F) : (kadd k1 k1 : F) <> k0 -> iso_to A A' r u -> B <> k0 ->
  let B' := (B / (u * u * u))%F in
  (forall M, on A B M <-> on A' B' (iso_pt F r u M)) /\
  (forall M N, iso_pt F r u (padd A B M N) = padd A' B' (iso_pt F r u M) (iso_pt F r u N)) /\
  (forall M N, iso_pt F r u M = iso_pt F r u N -> M = N) /\ (forall N, exists M, iso_pt F r u M = N).
Proof.
  intros two HI HB. cbv zeta. split; [intros M; split; [now apply iso_on|now apply iso_on_inv]|].
  split; [intros M N; now apply iso_padd|]. split; [intros M N; now apply (iso_inj F A A' r u)|now apply (iso_surj F A A' r u)].
Qed.
