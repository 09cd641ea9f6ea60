(** Small isogenies over a field. *)
From Coq Require Import Field.
From Verif Require Import Base Out Ops Ec Fld FieldOps CurveSpec IsogSpec FldCurve GroupP.
Set Bullet Behavior "Strict Subproofs".

Section FI.
Variable F : fld.
Variables (unit : F) (sqrt : F -> F) (lt : F -> F -> bool) (enc : F -> list Z) (dec : list Z -> F) (rnd : tape -> out (F * tape)).
Local Notation O := (fld_ops F unit sqrt lt enc dec rnd).
Hypothesis two : (kadd k1 k1 : F) <> k0.
Local Open Scope fld_scope.
Definition kth3 := kth F.
Add Field KF3 : kth3.
Ltac opn := cbn [fld_ops o_add o_sub o_madd o_msub o_mul o_sqr o_zero fst snd pX pZ co0 co1 co2].

Ltac toF_eq := match goal with |- ?a = ?b => change (@eq (K F) a b) end.
Ltac rng := toF_eq; ring.
Definition sq (x : F) := x * x.

Lemma eval4_form (X4 Z4 X Z : F) :
  eval_4_isog O (snd (get_4_isog O (@mkPt O X4 Z4))) (@mkPt O X Z) =
  @mkPt O (4 * (4 * (X * (((X4 * X4 + Z4 * Z4) * X - 2 * (X4 * Z4) * Z) * ((X4 * X - Z4 * Z) * (X4 * X - Z4 * Z))))))
          (4 * (4 * (Z * (((X4 * X4 + Z4 * Z4) * Z - 2 * (X4 * Z4) * X) * ((X4 * Z - Z4 * X) * (X4 * Z - Z4 * X)))))).
Proof. unfold eval_4_isog, get_4_isog. opn. apply f_equal2; rng. Qed.

Lemma dbl_form (X Z a c : F) : xDBL O (@mkPt O X Z) a c =
  @mkPt O (c * ((X + Z) * (X + Z) * ((X - Z) * (X - Z)))) (4 * (X * Z) * (c * ((X - Z) * (X - Z)) + 4 * (a * (X * Z)))).
Proof. unfold xDBL. opn. apply f_equal2; rng. Qed.

Lemma tpl_form (X Z am ap : F) : xTPL O (@mkPt O X Z) am ap =
  let m := sq (X - Z) in let q := sq (X + Z) in
  let u := m * (am * m) - q * (ap * q) in let v := (4 * sq X - q - m) * (ap * q - am * m) in
  @mkPt O (2 * X * sq (u + v)) (2 * Z * sq (u - v)).
Proof. unfold xTPL, sq. opn. apply f_equal2; rng. Qed.

Section I4.
Variables x s k : F.
Let X4 := x * s. Let Z4 := s.
Let a := - ((x - 1) * (x - 1) * ((x - 1) * (x - 1))) * k.
Let c := 4 * (2 * (x * (x * x + 1))) * k.
Let a' := fst (fst (get_4_isog O (@mkPt O X4 Z4))).
Let c' := snd (fst (get_4_isog O (@mkPt O X4 Z4))).
Let am := - ((x + 1) * (x + 1) * ((x + 1) * (x + 1))) * k.
Let ev := eval_4_isog O (snd (get_4_isog O (@mkPt O X4 Z4))).
Ltac prep := cbv zeta; unfold ev; rewrite ?dbl_form, ?tpl_form, ?eval4_form; cbv zeta; rewrite ?dbl_form, ?tpl_form, ?eval4_form; cbv zeta;
  unfold a', c'; unfold get_4_isog; opn; unfold X4, Z4, a, c, am, sq.
Lemma comm4_2 (X Z : F) : let l := 4 * (x * x * sq (sq (sq (sq s)))) in let r := (x * x + 1) * (sq (sq k)) in
  l * pX (ev (xDBL O (@mkPt O X Z) a c)) = r * pX (xDBL O (ev (@mkPt O X Z)) a' c') /\
  l * pZ (ev (xDBL O (@mkPt O X Z) a c)) = r * pZ (xDBL O (ev (@mkPt O X Z)) a' c').
Proof. prep. split; rng. Qed.
Lemma comm4_3 (X Z : F) : let l := 2 * 4 * (4 * 4 * 4) * (sq (sq (sq x)) * (sq (sq (sq s)) * sq (sq (sq (sq (sq s)))))) in let r := sq (sq (sq k)) in
  l * pX (ev (xTPL O (@mkPt O X Z) am a)) = r * pX (xTPL O (ev (@mkPt O X Z)) (a' - c') a') /\
  l * pZ (ev (xTPL O (@mkPt O X Z) am a)) = r * pZ (xTPL O (ev (@mkPt O X Z)) (a' - c') a').
Proof. prep. split; rng. Qed.
End I4.

Lemma eval3_form (X3 Z3 X Z : F) :
  eval_3_isog O (snd (get_3_isog O (@mkPt O X3 Z3))) (@mkPt O X Z) =
  @mkPt O (4 * (X * sq (X3 * X - Z3 * Z))) (4 * (Z * sq (X3 * Z - Z3 * X))).
Proof. unfold eval_3_isog, get_3_isog, sq. opn. apply f_equal2; rng. Qed.
Section I3.
Variables x s k : F.
Let a := (1 - x) * (1 - x) * (1 - x) * (1 + 3 * x) * k.
Let am := (1 + x) * (1 + x) * (1 + x) * (1 - 3 * x) * k.
Let c := 4 * 4 * (x * x * x) * k.
Let a' := snd (fst (get_3_isog O (@mkPt O (x * s) s))).
Let am' := fst (fst (get_3_isog O (@mkPt O (x * s) s))).
Let ev := eval_3_isog O (snd (get_3_isog O (@mkPt O (x * s) s))).
Ltac prep := cbv zeta; unfold ev; rewrite ?dbl_form, ?tpl_form, ?eval3_form; cbv zeta; rewrite ?dbl_form, ?tpl_form, ?eval3_form; cbv zeta;
  unfold a', am'; unfold get_3_isog; opn; unfold a, c, am, sq.
Lemma comm3_2 (X Z : F) : let l := sq s * sq (sq (sq s)) in let r := - (4 * (x * x * (k * k * k))) in
  l * pX (ev (xDBL O (@mkPt O X Z) a c)) = r * pX (xDBL O (ev (@mkPt O X Z)) a' (a' - am')) /\
  l * pZ (ev (xDBL O (@mkPt O X Z) a c)) = r * pZ (xDBL O (ev (@mkPt O X Z)) a' (a' - am')).
Proof. prep. split; rng. Qed.
Lemma comm3_3 (X Z : F) : let l := sq (sq (sq s)) * sq (sq (sq (sq s))) in let r := 4 * (sq k * sq (sq k)) in
  l * pX (ev (xTPL O (@mkPt O X Z) am a)) = r * pX (xTPL O (ev (@mkPt O X Z)) am' a') /\
  l * pZ (ev (xTPL O (@mkPt O X Z) am a)) = r * pZ (xTPL O (ev (@mkPt O X Z)) am' a').
Proof. prep. split; rng. Qed.
End I3.

Lemma eval2_form (X2 Z2 X Z : F) :
  eval_2_isog O (@mkPt O X Z) (@mkPt O X2 Z2) = @mkPt O (2 * (X * (X2 * X - Z2 * Z))) (2 * (Z * (Z2 * X - X2 * Z))).
Proof. unfold eval_2_isog. opn. apply f_equal2; rng. Qed.
Section I2.
Variables x s k : F.
Let a := - ((x - 1) * (x - 1)) * k.
Let am := - ((x + 1) * (x + 1)) * k.
Let c := 4 * x * k.
Let a' := fst (get_2_isog O (@mkPt O (x * s) s)).
Let c' := snd (get_2_isog O (@mkPt O (x * s) s)).
Let ev P := eval_2_isog O P (@mkPt O (x * s) s).
Ltac prep := cbv zeta; unfold ev; rewrite ?dbl_form, ?tpl_form, ?eval2_form; cbv zeta; rewrite ?dbl_form, ?tpl_form, ?eval2_form; cbv zeta;
  unfold a', c'; unfold get_2_isog; opn; unfold a, c, am, sq.
Lemma comm2_2 (X Z : F) : let l := x * (s * sq (sq s)) in let r := 2 * (k * k) in
  l * pX (ev (xDBL O (@mkPt O X Z) a c)) = r * pX (xDBL O (ev (@mkPt O X Z)) a' c') /\
  l * pZ (ev (xDBL O (@mkPt O X Z) a c)) = r * pZ (xDBL O (ev (@mkPt O X Z)) a' c').
Proof. prep. split; rng. Qed.
Lemma comm2_3 (X Z : F) : let l := sq (sq x) * (sq (sq s) * sq (sq (sq s))) in let r := 2 * sq (sq k) in
  l * pX (ev (xTPL O (@mkPt O X Z) am a)) = r * pX (xTPL O (ev (@mkPt O X Z)) (a' - c') a') /\
  l * pZ (ev (xTPL O (@mkPt O X Z) am a)) = r * pZ (xTPL O (ev (@mkPt O X Z)) (a' - c') a').
Proof. prep. split; rng. Qed.
End I2.

(** ** Isogenies on points *)
Lemma prop_xeq (l r X1 Z1 X2 Z2 : F) M N : l <> 0 -> r <> 0 -> l * X1 = r * X2 -> l * Z1 = r * Z2 ->
  xz X1 Z1 M -> xz X2 Z2 N -> xeq M N.
Proof.
  intros Hl Hr EX EZ HM HN. destruct M as [|x y], N as [|x' y']; cbn [xz xeq] in *; auto.
  - destruct HM as [_ ->]. destruct HN as [HN _]. apply (mul_nz F r Z2); auto. rewrite <- EZ. ring.
  - destruct HN as [_ ->]. destruct HM as [HM _]. apply (mul_nz F l Z1); auto. rewrite EZ. ring.
  - destruct HM as [HM ->], HN as [HN ->]. apply (mul_cancel F) with (l * Z1); [now apply mul_nz|].
    transitivity (l * (x * Z1)); [ring|]. rewrite EX, EZ. ring.
Qed.
Lemma xz_exists (M : point F) : exists X Z : F, xz X Z M.
Proof.
  destruct M as [|x y].
  - exists 1, 0. split; [apply (one_nz F)|reflexivity].
  - exists x, 1. split; [apply (one_nz F)|ring].
Qed.

Section Thm.
Variables A B : F.
Hypothesis HA : A * A <> 4.
Hypothesis HB : B <> 0.
Local Notation on := (on A B). Local Notation padd := (padd A B).

Ltac fsd := repeat match goal with |- _ /\ _ => split end;
  first [assumption | exact two | exact (four_nz F two) | apply (neg_nz F); assumption].
Notation xDBLok := (xDBL_ok F unit sqrt lt enc dec rnd two A B HA HB).
Notation xTPLok := (xTPL_ok F unit sqrt lt enc dec rnd two A B HA HB).

(** *** Degree 2 *)
Section D2.
Variable k : F.
Hypothesis Nk : k <> 0.
Hypothesis Hk : on (Aff k 0).
Lemma k2_root : k * k + A * k + 1 = 0.
Proof.
  cbn in Hk. unfold fx in Hk. assert (E : k * (k * k + A * k + 1) = 0) by (transitivity (k * k * k + A * (k * k) + k); [ring|]; rewrite <- Hk; ring).
  apply (mul_z F) in E as [E|E]; [contradiction|exact E].
Qed.
Lemma k2_A : A = - (k * k + 1) / k.
Proof. transitivity (((k * k + A * k + 1) - (k * k + 1)) / k); [field; fsd|]. rewrite k2_root. field. fsd. Qed.
Lemma k2_ne : k * k - 1 <> 0.
Proof. apply (sub_nz F). apply (root_ne F A HA). apply k2_root. Qed.

Lemma phi2_xz X2 Z2 X Z M : xz X2 Z2 (Aff k 0) -> xz X Z M ->
  let R := eval_2_isog O (@mkPt O X Z) (@mkPt O X2 Z2) in xz (pX R) (pZ R) (phi2 k M).
Proof.
  intros [NZ2 ->] HM. rewrite eval2_form. opn. cbv zeta. destruct M as [|x y]; cbn [xz phi2] in *.
  - destruct HM as [NX ->]. split; [|ring].
    replace (2 * (X * (k * Z2 * X - Z2 * 0))) with (2 * (X * (X * (k * Z2)))) by ring. repeat apply (mul_nz F); auto.
  - destruct HM as [NZ ->]. destruct (kdec x k) as [->|N]; cbn [xz].
    + split; [|ring]. replace (2 * (k * Z * (k * Z2 * (k * Z) - Z2 * Z))) with (2 * (k * Z * ((k * k - 1) * (Z2 * Z)))) by ring.
      repeat apply (mul_nz F); auto. apply k2_ne.
    + apply (sub_nz F) in N. split.
      * replace (2 * (Z * (Z2 * (x * Z) - k * Z2 * Z))) with (2 * (Z * ((x - k) * (Z2 * Z)))) by ring. repeat apply (mul_nz F); auto.
      * field. fsd.
Qed.
Lemma phi2_on M : on M -> CurveSpec.on (A2 k) (B2 k B) (phi2 k M).
Proof.
  destruct M as [|x y]; cbn [phi2]; [easy|]. intros H. destruct (kdec x k) as [->|N]; [exact I|].
  apply (sub_nz F) in N. cbn in *. unfold A2, B2. 
  set (t := (k * (x * x) - 2 * (k * k * x) + k) / ((x - k) * (x - k))).
  transitivity (k * (B * (y * y)) * (t * t)); [ring|]. rewrite H. unfold t, fx. rewrite k2_A. field. fsd.
Qed.
Lemma phi2_inf M : on M -> (phi2 k M = Inf <-> M = Inf \/ M = Aff k 0).
Proof.
  destruct M as [|x y]; cbn [phi2]; [tauto|]. intros H. destruct (kdec x k) as [->|N].
  - split; [intros _; right|auto]. f_equal. apply (y0 F A B HB k y H). rewrite <- Hk. ring.
  - split; [discriminate|]. intros [D|D]; [discriminate|]. injection D. contradiction.
Qed.
Lemma cod2_ns : A2 k * A2 k <> 4 /\ B2 k B <> 0.
Proof.
  split; [|now apply (mul_nz F)]. intros E. 
  assert (E' : 4 * 4 * (k * k * (k * k - 1)) = 0).
  { transitivity (A2 k * A2 k - 4); [unfold A2; ring|]. rewrite E. ring. }
  revert E'. repeat apply (mul_nz F); auto. apply k2_ne.
Qed.
Lemma get2_ok X2 Z2 : xz X2 Z2 (Aff k 0) -> let g := get_2_isog O (@mkPt O X2 Z2) in
  (snd g : F) <> 0 /\ 4 * fst g = (A2 k + 2) * snd g.
Proof.
  intros [NZ ->]. unfold get_2_isog, A2. opn. cbv zeta. split; [now apply (mul_nz F)|]. rng.
Qed.
Lemma phi2_dbl M : on M -> xeq (phi2 k (padd M M)) (CurveSpec.padd (A2 k) (B2 k B) (phi2 k M) (phi2 k M)).
Proof.
  intros HM. destruct (xz_exists M) as (X & Z & HX).
  assert (Hk1 : xz (k * 1) 1 (Aff k 0)) by (split; [apply (one_nz F)|reflexivity]).
  destruct (get2_ok _ _ Hk1) as [G1 G2]. destruct cod2_ns as [C1 C2].
  pose proof (comm2_2 k 1 1 X Z) as [E1 E2].
  eapply (prop_xeq _ _ _ _ _ _ _ _ _ _ E1 E2).
  - apply phi2_xz; auto. apply (xDBLok (@mkPt O X Z) _ _ M); auto.
    + repeat apply (mul_nz F); auto; apply (one_nz F).
    + rewrite k2_A at 1. field. fsd.
  - apply (xDBL_ok F unit sqrt lt enc dec rnd two (A2 k) (B2 k B) C1 C2 _ _ _ (phi2 k M)); auto.
    + now apply phi2_on.
    + now apply phi2_xz.
  Unshelve. all: unfold sq; repeat apply (mul_nz F); auto; apply (one_nz F).
Qed.
Lemma phi2_tpl M : on M -> xeq (phi2 k (padd M (padd M M)))
  (let R := phi2 k M in CurveSpec.padd (A2 k) (B2 k B) R (CurveSpec.padd (A2 k) (B2 k B) R R)).
Proof.
  intros HM. destruct (xz_exists M) as (X & Z & HX).
  assert (Hk1 : xz (k * 1) 1 (Aff k 0)) by (split; [apply (one_nz F)|reflexivity]).
  destruct (get2_ok _ _ Hk1) as [G1 G2]. destruct cod2_ns as [C1 C2].
  pose proof (comm2_3 k 1 1 X Z) as [E1 E2].
  eapply (prop_xeq _ _ _ _ _ _ _ _ _ _ E1 E2).
  - apply phi2_xz; auto. apply (xTPLok (@mkPt O X Z) _ _ k M); auto.
    + rewrite k2_A at 1. field. fsd.
    + rewrite k2_A at 1. field. fsd.
  - apply (xTPL_ok F unit sqrt lt enc dec rnd two (A2 k) (B2 k B) C1 C2 _ _ _ (1 / 4) (phi2 k M)); auto.
    + now apply phi2_on.
    + now apply phi2_xz.
    + intros E. apply (one_nz F). transitivity (1 / 4 * 4 : F); [field; fsd|]. rewrite E. ring.
    + unfold get_2_isog, A2. opn. toF_eq. field. fsd.
    + unfold get_2_isog, A2. opn. toF_eq. field. fsd.
  Unshelve. all: unfold sq; repeat apply (mul_nz F); auto; apply (one_nz F).
Qed.
End D2.

(** *** Degree 3 *)
Section D3.
Variables k yk : F.
Hypothesis Hk : on (Aff k yk).
Hypothesis Ok3 : padd (Aff k yk) (padd (Aff k yk) (Aff k yk)) = Inf.
Lemma k3_psi : psi3 F A k = 0.
Proof.
  assert (Hk1 : xz k 1 (Aff k yk)) by (split; [apply (one_nz F)|ring]).
  pose proof (xTPLok (@mkPt O k 1) _ _ 1 (Aff k yk) Hk Hk1 (one_nz F) eq_refl eq_refl) as H.
  rewrite Ok3 in H. destruct H as [_ H].
  rewrite (xTPL_form F unit sqrt lt enc dec rnd A (@mkPt O k 1) _ _ 1 eq_refl eq_refl k) in H by (opn; rng).
  cbn [pX pZ] in H. apply (sqr_z F).
  assert (E : 2 * 4 * 4 * (psi3 F A k * psi3 F A k) = 0) by (rewrite <- H; rng).
  apply (mul_z F) in E as [E|E]; [|exact E]. exfalso. revert E. repeat apply (mul_nz F); exact two.
Qed.
Lemma k3_nz : k <> 0.
Proof. intros E. apply (neg_nz F 1 (one_nz F)). rewrite <- k3_psi, E. unfold psi3. ring. Qed.
Lemma k3_A : A = (1 - 2 * 3 * (k * k) - 3 * (k * k * (k * k))) / (4 * (k * k * k)).
Proof.
  pose proof k3_nz as Nk.
  transitivity ((psi3 F A k + (1 - 2 * 3 * (k * k) - 3 * (k * k * (k * k)))) / (4 * (k * k * k))); [unfold psi3; field; fsd|].
  rewrite k3_psi. field. fsd.
Qed.
Lemma k3_ne : k * k - 1 <> 0.
Proof.
  intros E. apply (sub_eq F) in E. apply HA.
  assert (E1 : 4 * (A * k + 2) = 0).
  { rewrite <- k3_psi. unfold psi3. replace (k * k * k) with (k * k * k) by ring. rewrite E. ring. }
  apply (mul_z F) in E1 as [E1|E1]; [now apply (four_nz F two) in E1|].
  transitivity ((A * k + 2) * (A * k + 2) - 4 * (A * k + 2) + 4 - A * A * (k * k - 1)); [ring|]. rewrite E1, E. ring.
Qed.
Lemma k3_ne3 : 3 * 3 * (k * k) - 1 <> 0.
Proof.
  intros E. apply (sub_eq F) in E. apply HA.
  assert (E1 : 4 * (A * (3 * k) - 2) = 0).
  { transitivity (3 * 3 * 3 * psi3 F A k); [|rewrite k3_psi; ring].
    transitivity (3 * 3 * (k * k) * (3 * 3 * (k * k)) + 4 * (A * (3 * k)) * (3 * 3 * (k * k)) + 2 * 3 * 3 * (3 * 3 * (k * k)) - 3 * 3 * 3); [|unfold psi3; ring].
    rewrite E. ring. }
  apply (mul_z F) in E1 as [E1|E1]; [now apply (four_nz F two) in E1|].
  transitivity ((A * (3 * k) - 2) * (A * (3 * k) - 2) + 4 * (A * (3 * k) - 2) + 4 - A * A * (3 * 3 * (k * k) - 1)); [ring|]. rewrite E1, E. ring.
Qed.
Definition s3 (s : F) : F := - (4 * (k * (s * s * (s * s)))).
Lemma get3_ok s : let g := fst (get_3_isog O (@mkPt O (k * s) s)) in
  (fst g : F) = (A3 A k - 2) * s3 s /\ (snd g : F) = (A3 A k + 2) * s3 s.
Proof.
  pose proof k3_nz as Nk. unfold get_3_isog, A3, s3. opn. cbv zeta. split; toF_eq; rewrite k3_A; field; fsd.
Qed.
Lemma cod3_ns : A3 A k * A3 A k <> 4 /\ B3 k B <> 0.
Proof.
  pose proof k3_nz as Nk. split; [|repeat apply (mul_nz F); auto]. intros E.
  pose proof (get3_ok 1) as [G1 G2]. cbv zeta in G1, G2.
  assert (E' : (3 * 3 * (k * k) - 1) * ((3 * 3 * (k * k) - 1) * ((3 * 3 * (k * k) - 1) * (k * k - 1))) = 0).
  { transitivity ((fst (fst (get_3_isog O (@mkPt O (k * 1) 1))) : F) * snd (fst (get_3_isog O (@mkPt O (k * 1) 1)))).
    - unfold get_3_isog. opn. rng.
    - rewrite G1, G2. transitivity ((A3 A k * A3 A k - 4) * (s3 1 * s3 1)); [ring|]. rewrite E. ring. }
  revert E'. repeat apply (mul_nz F); auto using k3_ne3, k3_ne.
Qed.
Lemma phi3_xz s X Z M : s <> 0 -> xz X Z M ->
  let R := eval_3_isog O (snd (get_3_isog O (@mkPt O (k * s) s))) (@mkPt O X Z) in xz (pX R) (pZ R) (phi3 k M).
Proof.
  pose proof k3_nz as Nk. intros Ns HM. rewrite eval3_form. unfold sq. opn. cbv zeta. pose proof (four_nz F two) as N4.
  destruct M as [|x y]; cbn [xz phi3] in *.
  - destruct HM as [NX ->]. split; [|ring].
    replace (k * s * X - s * 0) with (k * s * X) by ring. repeat apply (mul_nz F); auto.
  - destruct HM as [NZ ->]. destruct (kdec x k) as [->|N]; cbn [xz].
    + split; [|ring]. replace (k * s * (k * Z) - s * Z) with ((k * k - 1) * (s * Z)) by ring.
      repeat apply (mul_nz F); auto using k3_ne.
    + apply (sub_nz F) in N. split.
      * replace (k * s * Z - s * (x * Z)) with (- ((x - k) * (s * Z))) by ring. repeat (apply (mul_nz F) || apply (neg_nz F)); auto.
      * field. fsd.
Qed.
Lemma phi3_on M : on M -> CurveSpec.on (A3 A k) (B3 k B) (phi3 k M).
Proof.
  pose proof k3_nz as Nk. destruct M as [|x y]; cbn [phi3]; [easy|]. intros H. destruct (kdec x k) as [->|N]; [exact I|].
  apply (sub_nz F) in N. cbn in *. unfold A3, B3.
  set (t := (k * x - 1) * (k * (x * x) - 3 * (k * k * x) + x + k) / ((x - k) * (x - k) * (x - k))).
  transitivity (k * k * (B * (y * y)) * (t * t)); [ring|]. rewrite H. unfold t, fx. rewrite k3_A. field. fsd.
Qed.
Lemma phi3_inf M : on M -> (phi3 k M = Inf <-> M = Inf \/ M = Aff k yk \/ M = neg (Aff k yk)).
Proof.
  destruct M as [|x y]; cbn [phi3]; [tauto|]. intros H. destruct (kdec x k) as [->|N].
  - split; [intros _; right|auto]. cbn. destruct (on_y_eq F A B HB k y yk H Hk) as [->|E]; [now left|right].
    f_equal. transitivity (y + yk - yk); [ring|]. rewrite E. ring.
  - split; [discriminate|]. intros [D|[D|D]]; [discriminate| |]; injection D; contradiction.
Qed.
Lemma s3_nz s : s <> 0 -> s3 s <> 0.
Proof. intros. apply (neg_nz F). pose proof k3_nz. pose proof (four_nz F two). repeat apply (mul_nz F); auto. Qed.
Lemma k3_cases : 4 * ((1 - k) * (1 - k) * (1 - k) * (1 + 3 * k) * 1) = (A + 2) * (4 * 4 * (k * k * k) * 1).
Proof. pose proof k3_nz as Nk. rewrite k3_A. field. fsd. Qed.
Lemma phi3_dbl M : on M -> xeq (phi3 k (padd M M)) (CurveSpec.padd (A3 A k) (B3 k B) (phi3 k M) (phi3 k M)).
Proof.
  intros HM. destruct (xz_exists M) as (X & Z & HX). pose proof k3_nz as Nk. pose proof (four_nz F two) as N4. pose proof (one_nz F) as N1.
  destruct (get3_ok 1) as [G1 G2]. destruct cod3_ns as [C1 C2]. pose proof (s3_nz 1 N1) as Ns.
  pose proof (comm3_2 k 1 1 X Z) as [E1 E2].
  eapply (prop_xeq _ _ _ _ _ _ _ _ _ _ E1 E2).
  - apply phi3_xz; auto. apply (xDBLok (@mkPt O X Z) _ _ M); auto.
    + repeat apply (mul_nz F); auto; apply (one_nz F).
    + apply k3_cases.
  - rewrite G1, G2. apply (xDBL_ok F unit sqrt lt enc dec rnd two (A3 A k) (B3 k B) C1 C2 _ _ _ (phi3 k M)); auto.
    + now apply phi3_on.
    + now apply phi3_xz.
    + replace ((A3 A k + 2) * s3 1 - (A3 A k - 2) * s3 1) with (4 * s3 1) by ring. now apply (mul_nz F).
    + ring.
  Unshelve. all: unfold sq; repeat (apply (mul_nz F) || apply (neg_nz F)); auto.
Qed.
Lemma phi3_tpl M : on M -> xeq (phi3 k (padd M (padd M M)))
  (let R := phi3 k M in CurveSpec.padd (A3 A k) (B3 k B) R (CurveSpec.padd (A3 A k) (B3 k B) R R)).
Proof.
  intros HM. destruct (xz_exists M) as (X & Z & HX). pose proof k3_nz as Nk. pose proof (four_nz F two) as N4. pose proof (one_nz F) as N1.
  destruct (get3_ok 1) as [G1 G2]. destruct cod3_ns as [C1 C2]. pose proof (s3_nz 1 N1) as Ns.
  pose proof (comm3_3 k 1 1 X Z) as [E1 E2].
  eapply (prop_xeq _ _ _ _ _ _ _ _ _ _ E1 E2).
  - apply phi3_xz; auto. apply (xTPLok (@mkPt O X Z) _ _ (4 * (k * k * k)) M); auto.
    + repeat apply (mul_nz F); auto.
    + rewrite k3_A at 1. field. fsd.
    + rewrite k3_A at 1. field. fsd.
  - apply (xTPL_ok F unit sqrt lt enc dec rnd two (A3 A k) (B3 k B) C1 C2 _ _ _ (s3 1) (phi3 k M)); auto.
    + now apply phi3_on.
    + now apply phi3_xz.
  Unshelve. all: unfold sq; repeat (apply (mul_nz F) || apply (neg_nz F)); auto.
Qed.
End D3.

(** *** Degree 4 *)
Section D4.
Variables k yk m : F.
Hypothesis Nm : m <> 0.
Hypothesis Hk : on (Aff k yk).
Hypothesis Ok4 : padd (Aff k yk) (Aff k yk) = Aff m 0.
Lemma k4_m : 2 * (m * k) = k * k + 1.
Proof.
  assert (Hm : on (Aff m 0)) by (rewrite <- Ok4; now apply (padd_on F two A B HA HB)).
  pose proof (k2_root m Nm Hm) as R.
  assert (Ny : yk <> 0).
  { intros E. rewrite E in Ok4. rewrite (padd_opp F A B) in Ok4 by ring. discriminate. }
  destruct (double_x F two A B HB k yk Hk Ny) as [y2 E]. rewrite Ok4 in E. injection E as Em _.
  assert (Nf : fx A k <> 0) by (intros E0; apply Ny; now apply (y0 F A B HB k yk Hk)).
  assert (E1 : (k * k - 1) * (k * k - 1) = 4 * (fx A k * m)) by (rewrite Em; field; fsd).
  apply (sub_eq F). apply (sqr_z F).
  transitivity ((k * k - 1) * (k * k - 1) - 4 * (fx A k * m) + 4 * (k * k) * (m * m + A * m + 1)); [unfold fx; ring|].
  rewrite E1, R. ring.
Qed.
Lemma k4_nz : k <> 0.
Proof. intros E. apply (one_nz F). transitivity (k * k + 1); [rewrite E; ring|]. rewrite <- k4_m, E. ring. Qed.
Lemma k4_nz1 : k * k + 1 <> 0.
Proof. rewrite <- k4_m. pose proof k4_nz. repeat apply (mul_nz F); auto. Qed.
Lemma k4_em : m = (k * k + 1) / (2 * k).
Proof. pose proof k4_nz. rewrite <- k4_m. field. fsd. Qed.
Lemma k4_A : A = - ((k * k + 1) * (k * k + 1) + 4 * (k * k)) / (2 * (k * (k * k + 1))).
Proof.
  pose proof k4_nz. pose proof k4_nz1.
  assert (Hm : on (Aff m 0)) by (rewrite <- Ok4; now apply (padd_on F two A B HA HB)).
  rewrite (k2_A m Nm Hm) at 1. rewrite k4_em. field. fsd.
Qed.
Lemma k4_ne : k * k - 1 <> 0.
Proof.
  intros E. assert (Hm : on (Aff m 0)) by (rewrite <- Ok4; now apply (padd_on F two A B HA HB)).
  apply (k2_ne m Nm Hm). apply (sub_eq F) in E.
  apply (mul_cancel F) with (4 * (k * k)); [pose proof k4_nz; repeat apply (mul_nz F); auto|].
  transitivity (2 * (m * k) * (2 * (m * k)) - 4 * (k * k)); [ring|]. rewrite k4_m, E. ring.
Qed.
Lemma get4_ok s : s <> 0 -> let g := fst (get_4_isog O (@mkPt O (k * s) s)) in
  (snd g : F) <> 0 /\ 4 * fst g = (A4 k + 2) * snd g.
Proof.
  intros Ns. unfold get_4_isog, A4. opn. cbv zeta. split; [|rng].
  replace (s * s + s * s) with (2 * (s * s)) by rng. repeat apply (mul_nz F); auto.
Qed.
Lemma cod4_ns : A4 k * A4 k <> 4 /\ B4 k B <> 0.
Proof.
  pose proof k4_nz as Nk. pose proof k4_nz1 as N1. pose proof k4_ne as N2. pose proof (four_nz F two) as N4. split.
  - intros E. assert (E' : 4 * 4 * (k * (k * (k * k)) * ((k * k + 1) * (k * k - 1))) = 0).
    { transitivity (A4 k * A4 k - 4); [unfold A4; ring|]. rewrite E. ring. }
    revert E'. repeat apply (mul_nz F); auto.
  - unfold B4. intros E. apply (neg_nz F (k * (k * k + 1) * B)); [repeat apply (mul_nz F); auto|].
    transitivity (- (k * (k * k + 1) * B) / 2 * 2); [field; fsd|]. rewrite E. ring.
Qed.
Lemma phi4_xz s X Z M : s <> 0 -> xz X Z M ->
  let R := eval_4_isog O (snd (get_4_isog O (@mkPt O (k * s) s))) (@mkPt O X Z) in xz (pX R) (pZ R) (phi4 k M).
Proof.
  pose proof k4_nz as Nk. pose proof k4_nz1 as N1. pose proof k4_ne as N2. pose proof (four_nz F two) as N4.
  intros Ns HM. rewrite eval4_form. opn. cbv zeta.
  destruct M as [|x y]; cbn [xz phi4] in *.
  - destruct HM as [NX ->]. split; [|ring].
    replace (k * s * X - s * 0) with (k * s * X) by ring.
    replace ((k * s * (k * s) + s * s) * X - 2 * (k * s * s) * 0) with ((k * k + 1) * (s * s * X)) by ring. repeat apply (mul_nz F); auto.
  - destruct HM as [NZ ->].
    assert (E1 : (k * s * (k * s) + s * s) * (x * Z) - 2 * (k * s * s) * Z = ((k * k + 1) * x - 2 * k) * (s * s * Z)) by ring.
    assert (E2 : k * s * (x * Z) - s * Z = (k * x - 1) * (s * Z)) by ring.
    assert (E3 : (k * s * (k * s) + s * s) * Z - 2 * (k * s * s) * (x * Z) = - ((2 * (k * x) - k * k - 1) * (s * s * Z))) by ring.
    assert (E4 : k * s * Z - s * (x * Z) = - ((x - k) * (s * Z))) by ring.
    rewrite E1, E2, E3, E4. clear E1 E2 E3 E4.
    destruct (kdec x k) as [->|N]; cbn [xz].
    + split; [|ring].
      replace ((k * k + 1) * k - 2 * k) with (k * (k * k - 1)) by ring. repeat apply (mul_nz F); auto.
    + destruct (kdec (2 * (k * x)) (k * k + 1)) as [E|Nd]; cbn [xz].
      * assert (x = m) as ->.
        { apply (mul_cancel F) with (2 * k); [now apply (mul_nz F)|]. transitivity (2 * (k * x)); [ring|]. rewrite E, <- k4_m. ring. }
        assert (Ed : 2 * (k * m) - k * k - 1 = 0) by (rewrite E; ring). rewrite Ed. split; [|ring].
        assert (P1 : k * m - 1 <> 0).
        { intros E0. apply N2. transitivity (2 * (m * k) - (k * k + 1) + (k * k - 1) - 2 * (k * m - 1)); [rewrite k4_m, E0; ring|].
          rewrite k4_m. transitivity (k * k + 1 - 2 * (k * m)); [ring|]. rewrite E. ring. }
        assert (P2 : (k * k + 1) * m - 2 * k <> 0).
        { intros E0. apply (mul_nz F (k * k - 1) (k * k - 1)); auto.
          transitivity (((k * k + 1) * m - 2 * k) * (2 * k)); [|rewrite E0; ring].
          transitivity ((k * k + 1) * (2 * (m * k)) - 4 * (k * k)); [rewrite k4_m; ring|ring]. }
        repeat apply (mul_nz F); auto.
      * assert (Nd' : 2 * (k * x) - k * k - 1 <> 0).
        { intros E0. apply Nd. apply (sub_eq F). rewrite <- E0. ring. }
        apply (sub_nz F) in N. clear Nd. split.
        -- repeat (apply (mul_nz F) || apply (neg_nz F)); auto.
        -- set (d := 2 * (k * x) - k * k - 1) in *. clearbody d. field. fsd.
Qed.
Lemma phi4_on M : on M -> CurveSpec.on (A4 k) (B4 k B) (phi4 k M).
Proof.
  pose proof k4_nz as Nk. pose proof k4_nz1 as N1. pose proof k4_ne as N2.
  destruct M as [|x y]; cbn [phi4]; [easy|]. intros H. destruct (kdec x k) as [->|N]; [exact I|].
  destruct (kdec _ _) as [E|Nd]; [exact I|].
  assert (Nd' : 2 * (k * x) - k * k - 1 <> 0).
  { intros E0. apply Nd. apply (sub_eq F). rewrite <- E0. ring. }
  apply (sub_nz F) in N. clear Nd. cbv zeta. cbn [CurveSpec.on] in *. unfold A4, B4.
  match goal with |- _ * (y * ?u * (y * ?u)) = _ => set (t := u) end.
  transitivity (- (k * (k * k + 1)) / 2 * (B * (y * y)) * (t * t)); [field; fsd|]. rewrite H. unfold t, fx. clear t. rewrite k4_A. field. fsd.
Qed.
Lemma phi4_inf M : on M -> (phi4 k M = Inf <-> M = Inf \/ M = Aff k yk \/ M = neg (Aff k yk) \/ M = Aff m 0).
Proof.
  pose proof k4_nz as Nk.
  destruct M as [|x y]; cbn [phi4]; [tauto|]. intros H. destruct (kdec x k) as [->|N].
  - split; [intros _; right|auto]. cbn. destruct (on_y_eq F A B HB k y yk H Hk) as [->|E]; [now left|right; left].
    f_equal. transitivity (y + yk - yk); [ring|]. rewrite E. ring.
  - destruct (kdec _ _) as [E|Nd].
    + assert (x = m) as ->.
      { apply (mul_cancel F) with (2 * k); [now apply (mul_nz F)|]. transitivity (2 * (k * x)); [ring|]. rewrite E, <- k4_m. ring. }
      split; [intros _|auto]. right; right; right. f_equal. apply (y0 F A B HB m y H).
      assert (Hm : on (Aff m 0)) by (rewrite <- Ok4; now apply (padd_on F two A B HA HB)). cbn in Hm. rewrite <- Hm. ring.
    + cbv zeta. split; [discriminate|]. intros [D|[D|[D|D]]]; [discriminate| | |]; injection D; try contradiction.
      intros _ E. exfalso. apply Nd. rewrite E, <- k4_m. ring.
Qed.
Lemma phi4_dbl M : on M -> xeq (phi4 k (padd M M)) (CurveSpec.padd (A4 k) (B4 k B) (phi4 k M) (phi4 k M)).
Proof.
  intros HM. destruct (xz_exists M) as (X & Z & HX).
  pose proof k4_nz as Nk. pose proof k4_nz1 as N1. pose proof k4_ne as N2. pose proof (four_nz F two) as N4. pose proof (one_nz F) as NN.
  destruct (get4_ok 1 NN) as [G1 G2]. destruct cod4_ns as [C1 C2].
  pose proof (comm4_2 k 1 1 X Z) as [E1 E2].
  eapply (prop_xeq _ _ _ _ _ _ _ _ _ _ E1 E2).
  - apply phi4_xz; auto. apply (xDBLok (@mkPt O X Z) _ _ M); auto.
    + repeat apply (mul_nz F); auto.
    + rewrite k4_A at 1. field. fsd.
  - apply (xDBL_ok F unit sqrt lt enc dec rnd two (A4 k) (B4 k B) C1 C2 _ _ _ (phi4 k M)); auto.
    + now apply phi4_on.
    + now apply phi4_xz.
  Unshelve. all: unfold sq; repeat apply (mul_nz F); auto.
Qed.
Lemma phi4_tpl M : on M -> xeq (phi4 k (padd M (padd M M)))
  (let R := phi4 k M in CurveSpec.padd (A4 k) (B4 k B) R (CurveSpec.padd (A4 k) (B4 k B) R R)).
Proof.
  intros HM. destruct (xz_exists M) as (X & Z & HX).
  pose proof k4_nz as Nk. pose proof k4_nz1 as N1. pose proof k4_ne as N2. pose proof (four_nz F two) as N4. pose proof (one_nz F) as NN.
  destruct (get4_ok 1 NN) as [G1 G2]. destruct cod4_ns as [C1 C2].
  pose proof (comm4_3 k 1 1 X Z) as [E1 E2].
  eapply (prop_xeq _ _ _ _ _ _ _ _ _ _ E1 E2).
  - apply phi4_xz; auto. apply (xTPLok (@mkPt O X Z) _ _ (2 * (k * (k * k + 1))) M); auto.
    + repeat apply (mul_nz F); auto.
    + rewrite k4_A at 1. field. fsd.
    + rewrite k4_A at 1. field. fsd.
  - apply (xTPL_ok F unit sqrt lt enc dec rnd two (A4 k) (B4 k B) C1 C2 _ _ _ 1 (phi4 k M)); auto.
    + now apply phi4_on.
    + now apply phi4_xz.
    + unfold get_4_isog, A4. opn. rng.
    + unfold get_4_isog, A4. opn. rng.
  Unshelve. all: unfold sq; repeat apply (mul_nz F); auto.
Qed.
End D4.
End Thm.
End FI.
