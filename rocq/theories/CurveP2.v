(** Bundles of the lemmas of GroupP, MultP, FldIsog, LadderP for the property files (proofs only). *)
From Coq Require Import Field.
From Verif Require Import Base Out Ops Ec Models Fld FieldOps CurveSpec IsogSpec FldCurve GroupP MultP FldIsog LadderP.
Set Bullet Behavior "Strict Subproofs".

Section C2.
Variable F : fld.
Variables (unit : F) (sqrt : F -> F) (lt : F -> F -> bool) (enc : F -> list Z) (dec : list Z -> F) (rnd : tape -> out (F * tape)).
Local Notation O := (fld_ops F unit sqrt lt enc dec rnd).
Local Open Scope fld_scope.
Lemma formulas_ok (X Z a c : F) :
  xDBL O (@mkPt O X Z) a c =
   @mkPt O (c * ((X + Z) * (X + Z) * ((X - Z) * (X - Z)))) (4 * (X * Z) * (c * ((X - Z) * (X - Z)) + 4 * (a * (X * Z)))) /\
  xTPL O (@mkPt O X Z) a c =
   let m := (X - Z) * (X - Z) in let q := (X + Z) * (X + Z) in
   let u := m * (a * m) - q * (c * q) in let v := (4 * (X * X) - q - m) * (c * q - a * m) in
   @mkPt O (2 * X * ((u + v) * (u + v))) (2 * Z * ((u - v) * (u - v))).
Proof. split; [apply dbl_form|apply (tpl_form F unit sqrt lt enc dec rnd X Z a c)]. Qed.

Hypothesis two : (kadd k1 k1 : F) <> k0.
Section Cv.
Variables A B : F.
Hypothesis HA : A * A <> 4.
Hypothesis HB : B <> 0.
Lemma group_ok : let G := on A B in
  (forall M N, G M -> G N -> G (padd A B M N)) /\
  (forall M, G M -> G (neg M)) /\
  (forall M N, G M -> G N -> padd A B M N = padd A B N M) /\
  (forall M N R, G M -> G N -> G R -> padd A B (padd A B M N) R = padd A B M (padd A B N R)) /\
  (forall M, padd A B Inf M = M /\ padd A B M Inf = M) /\
  (forall M, G M -> padd A B M (neg M) = Inf).
Proof.
  cbv zeta. split; [apply (padd_on F two A B HA HB)|]. split; [apply (neg_on F A B)|].
  split; [apply (padd_comm F two A B HA HB)|]. split; [apply (padd_assoc F two A B HA HB)|].
  split; [intros M; split; [reflexivity|apply padd_inf_r']|]. intros M _. apply padd_neg.
Qed.
Lemma multiples_ok M : on A B M -> forall m n : nat,
  pmul A B (m + n) M = padd A B (pmul A B m M) (pmul A B n M) /\
  pmul A B (m * n) M = pmul A B m (pmul A B n M).
Proof. intros H m n. split; [now apply (pmul_add F two A B HA HB)|now apply (pmul_mul F two A B HA HB)]. Qed.

End Cv.
End C2.

Section Isog.
Variable F : fld.
Hypothesis two : (kadd k1 k1 : F) <> k0.
Local Open Scope fld_scope.
Variables A B : F.
Hypothesis HA : A * A <> 4.
Hypothesis HB : B <> 0.
Ltac dummy := first [exact k0 | exact (fun x => x) | exact (fun _ _ => false) | exact (fun _ => nil) | exact (fun _ => k0) | exact (fun _ => NoTape)].
Lemma isog2_ok (k : F) : k <> 0 -> on A B (Aff k 0) ->
  (A2 k * A2 k <> 4 /\ B2 k B <> 0) /\
  (forall M, on A B M -> on (A2 k) (B2 k B) (phi2 k M)) /\
  (forall M, on A B M -> (phi2 k M = Inf <-> M = Inf \/ M = Aff k 0)) /\
  (forall M, on A B M -> xeq (phi2 k (padd A B M M)) (let R := phi2 k M in padd (A2 k) (B2 k B) R R)) /\
  (forall M, on A B M -> xeq (phi2 k (padd A B M (padd A B M M))) (let R := phi2 k M in padd (A2 k) (B2 k B) R (padd (A2 k) (B2 k B) R R))).
Proof.
  intros Nk Hk. split; [eapply cod2_ns; first [eassumption | dummy]|]. split; [intros M HM; eapply phi2_on; first [eassumption | dummy]|].
  split; [intros M HM; exact (phi2_inf F k0 (fun x => x) (fun _ _ => false) (fun _ => nil) (fun _ => k0) (fun _ => NoTape) A B HB k Hk M HM)|]. split; [intros M HM; exact (phi2_dbl F k0 (fun x => x) (fun _ _ => false) (fun _ => nil) (fun _ => k0) (fun _ => NoTape) two A B HA HB k Nk Hk M HM)|].
  intros M HM; exact (phi2_tpl F k0 (fun x => x) (fun _ _ => false) (fun _ => nil) (fun _ => k0) (fun _ => NoTape) two A B HA HB k Nk Hk M HM).
Qed.
Lemma isog3_ok (k yk : F) : on A B (Aff k yk) -> padd A B (Aff k yk) (padd A B (Aff k yk) (Aff k yk)) = Inf ->
  (A3 A k * A3 A k <> 4 /\ B3 k B <> 0) /\
  (forall M, on A B M -> on (A3 A k) (B3 k B) (phi3 k M)) /\
  (forall M, on A B M -> (phi3 k M = Inf <-> M = Inf \/ M = Aff k yk \/ M = neg (Aff k yk))) /\
  (forall M, on A B M -> xeq (phi3 k (padd A B M M)) (let R := phi3 k M in padd (A3 A k) (B3 k B) R R)) /\
  (forall M, on A B M -> xeq (phi3 k (padd A B M (padd A B M M))) (let R := phi3 k M in padd (A3 A k) (B3 k B) R (padd (A3 A k) (B3 k B) R R))).
Proof.
  intros Hk Ok3. split; [eapply cod3_ns; first [eassumption | dummy]|]. split; [intros M HM; eapply phi3_on; first [eassumption | dummy]|].
  split; [intros M HM; exact (phi3_inf F k0 (fun x => x) (fun _ _ => false) (fun _ => nil) (fun _ => k0) (fun _ => NoTape) A B HB k yk Hk M HM)|]. split; [intros M HM; exact (phi3_dbl F k0 (fun x => x) (fun _ _ => false) (fun _ => nil) (fun _ => k0) (fun _ => NoTape) two A B HA HB k yk Hk Ok3 M HM)|].
  intros M HM; exact (phi3_tpl F k0 (fun x => x) (fun _ _ => false) (fun _ => nil) (fun _ => k0) (fun _ => NoTape) two A B HA HB k yk Hk Ok3 M HM).
Qed.
Lemma isog4_ok (k yk m : F) : on A B (Aff k yk) -> padd A B (Aff k yk) (Aff k yk) = Aff m 0 -> m <> 0 ->
  (A4 k * A4 k <> 4 /\ B4 k B <> 0) /\
  (forall M, on A B M -> on (A4 k) (B4 k B) (phi4 k M)) /\
  (forall M, on A B M -> (phi4 k M = Inf <-> M = Inf \/ M = Aff k yk \/ M = neg (Aff k yk) \/ M = Aff m 0)) /\
  (forall M, on A B M -> xeq (phi4 k (padd A B M M)) (let R := phi4 k M in padd (A4 k) (B4 k B) R R)) /\
  (forall M, on A B M -> xeq (phi4 k (padd A B M (padd A B M M))) (let R := phi4 k M in padd (A4 k) (B4 k B) R (padd (A4 k) (B4 k B) R R))).
Proof.
  intros Hk Ok4 Nm. split; [eapply cod4_ns; first [eassumption | dummy]|]. split; [intros M HM; eapply phi4_on; first [eassumption | dummy]|].
  split; [intros M HM; exact (phi4_inf F k0 (fun x => x) (fun _ _ => false) (fun _ => nil) (fun _ => k0) (fun _ => NoTape) two A B HA HB k yk m Nm Hk Ok4 M HM)|]. split; [intros M HM; exact (phi4_dbl F k0 (fun x => x) (fun _ _ => false) (fun _ => nil) (fun _ => k0) (fun _ => NoTape) two A B HA HB k yk m Nm Hk Ok4 M HM)|].
  intros M HM; exact (phi4_tpl F k0 (fun x => x) (fun _ _ => false) (fun _ => nil) (fun _ => k0) (fun _ => NoTape) two A B HA HB k yk m Nm Hk Ok4 M HM).
Qed.
End Isog.

Section LadderZero.
Variable F : fld.
Variables (unit : F) (sqrt : F -> F) (lt : F -> F -> bool) (enc : F -> list Z) (dec : list Z -> F) (rnd : tape -> out (F * tape)).
Local Notation O := (fld_ops F unit sqrt lt enc dec rnd).
Hypothesis two : (kadd k1 k1 : F) <> k0.
Local Open Scope fld_scope.
Definition kth_z := kth F.
Add Field KFz : kth_z.
(** The ladder on (0, 0) with the scalar 1 (one bit) gives (0 : 0). *)
Lemma Ladder_zero (A : F) : exists R, Ladder O 64 (@mkPt O 0 1) [1%Z] A 1 = Ok R /\ (pX R : F) = 0 /\ (pZ R : F) = 0.
Proof.
  eexists. split; [reflexivity|]. unfold xDBLADD, swap_points, ladder_A24. cbn [fst snd pX pZ fld_ops o_add o_sub o_madd o_msub o_mul o_sqr o_add1 o_div2 o_zero o_one].
  change (Z.testbit 1 (Z.of_nat (0 mod Z.to_nat 64))) with true. cbn [fst pX pZ].
  split; match goal with |- ?a = ?b => change (@eq (K F) a b) end; ring.
Qed.
End LadderZero.
