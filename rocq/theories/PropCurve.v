(** Property theorems C23-C27, C29-C31, C53: x-only arithmetic, square roots, ladder, small isogenies,
    j-invariant and curve models. *)
From Coq Require Import Znumtheory Zpow_facts.
From Verif Require Import Base BaseP Digits Out Params Fp Wf Fld FpRep FpMisc FpMiscP FpInst Ops Ec Models Sim
  WordOps FieldOps WordSim CurveSpec ModelSpec IsogSpec FldCurve GroupP MultP FldIsog LadderP IsoP CurveP2 Proto WordCurve WordModels.

(** Vocabulary (WordCurve.v), for a parameter set P with [HG : good P]:
    [GF P HG] is GF(p^2); [el P HG a] the element of GF(p^2) that the pair of digit arrays a stands for;
    [rng P a]/[srng P a]: proper arrays with values at most 2p / below 2p; [prng], [psrng], [crng], [irng]
    the same for points, curves and isomorphisms, [pel], [cel], [iel] their meaning;
    [repr P HG Q M]: the projective point Q in range stands for the point M up to sign. *)

(** * C23: the functions on digit arrays compute the formulas over GF(p^2) *)
Theorem C23_xDBL : forall P (HG : good P) Q a c, prng P Q -> rng P a -> rng P c ->
  psrng P (xDBL (word_ops P) Q a c) /\
  pel P HG (xDBL (word_ops P) Q a c) = xDBL (field_ops P (HW P HG) (Hp P HG)) (pel P HG Q) (el P HG a) (el P HG c).
Proof. exact xDBL_word. Qed.
Print Assumptions C23_xDBL.

Theorem C23_xTPL : forall P (HG : good P) Q a c, prng P Q -> rng P a -> rng P c ->
  psrng P (xTPL (word_ops P) Q a c) /\
  pel P HG (xTPL (word_ops P) Q a c) = xTPL (field_ops P (HW P HG) (Hp P HG)) (pel P HG Q) (el P HG a) (el P HG c).
Proof. exact xTPL_word. Qed.
Print Assumptions C23_xTPL.

Theorem C23_xDBLADD : forall P (HG : good P) Q R X Z a, prng P Q -> prng P R -> rng P X -> rng P Z -> rng P a ->
  let r := xDBLADD (word_ops P) Q R X Z a in
  let r' := xDBLADD (field_ops P (HW P HG) (Hp P HG)) (pel P HG Q) (pel P HG R) (el P HG X) (el P HG Z) (el P HG a) in
  psrng P (fst r) /\ psrng P (snd r) /\ pel P HG (fst r) = fst r' /\ pel P HG (snd r) = snd r'.
Proof. exact xDBLADD_word. Qed.
Print Assumptions C23_xDBLADD.

Theorem C23_isog2 : forall P (HG : good P) K, prng P K ->
  let g := get_2_isog (word_ops P) K in let g' := get_2_isog (field_ops P (HW P HG) (Hp P HG)) (pel P HG K) in
  (ok P (fst (fst g)) /\ ok P (snd (fst g)) /\
   valB (2 ^ radix P) (fst (fst g)) <= 4 * par_p P /\ valB (2 ^ radix P) (snd (fst g)) <= 4 * par_p P /\
   srng P (snd g) /\ el P HG (fst g) = fst g' /\ el P HG (snd g) = snd g') /\
  forall Q, prng P Q ->
  psrng P (eval_2_isog (word_ops P) Q K) /\
  pel P HG (eval_2_isog (word_ops P) Q K) = eval_2_isog (field_ops P (HW P HG) (Hp P HG)) (pel P HG Q) (pel P HG K).
Proof. exact isog2_word. Qed.
Print Assumptions C23_isog2.

Theorem C23_isog4 : forall P (HG : good P) K, prng P K ->
  let g := get_4_isog (word_ops P) K in let g' := get_4_isog (field_ops P (HW P HG) (Hp P HG)) (pel P HG K) in
  (rng P (fst (fst g)) /\ rng P (snd (fst g)) /\ el P HG (fst (fst g)) = fst (fst g') /\ el P HG (snd (fst g)) = snd (fst g')) /\
  forall Q, prng P Q ->
  psrng P (eval_4_isog (word_ops P) (snd g) Q) /\
  pel P HG (eval_4_isog (word_ops P) (snd g) Q) = eval_4_isog (field_ops P (HW P HG) (Hp P HG)) (snd g') (pel P HG Q).
Proof. exact isog4_word. Qed.
Print Assumptions C23_isog4.

Theorem C23_isog3 : forall P (HG : good P) K, prng P K ->
  let g := get_3_isog (word_ops P) K in let g' := get_3_isog (field_ops P (HW P HG) (Hp P HG)) (pel P HG K) in
  (rng P (fst (fst g)) /\ rng P (snd (fst g)) /\ el P HG (fst (fst g)) = fst (fst g') /\ el P HG (snd (fst g)) = snd (fst g')) /\
  forall Q, prng P Q ->
  psrng P (eval_3_isog (word_ops P) (snd g) Q) /\
  pel P HG (eval_3_isog (word_ops P) (snd g) Q) = eval_3_isog (field_ops P (HW P HG) (Hp P HG)) (snd g') (pel P HG Q).
Proof. exact isog3_word. Qed.
Print Assumptions C23_isog3.

Theorem C23_j_inv : forall P (HG : good P) a c, rng P a -> rng P c ->
  srng P (j_inv (word_ops P) a c) /\
  el P HG (j_inv (word_ops P) a c) = j_inv (field_ops P (HW P HG) (Hp P HG)) (el P HG a) (el P HG c).
Proof. exact j_inv_word. Qed.
Print Assumptions C23_j_inv.

Theorem C23_inv_3_way : forall P (HG : good P) a b c, rng P a -> rng P b -> rng P c ->
  let r := inv_3_way (word_ops P) a b c in
  let r' := inv_3_way (field_ops P (HW P HG) (Hp P HG)) (el P HG a) (el P HG b) (el P HG c) in
  srng P (fst (fst r)) /\ srng P (snd (fst r)) /\ srng P (snd r) /\
  el P HG (fst (fst r)) = fst (fst r') /\ el P HG (snd (fst r)) = snd (fst r') /\ el P HG (snd r) = snd r'.
Proof. exact inv_3_word. Qed.
Print Assumptions C23_inv_3_way.

Theorem C23_get_A : forall P (HG : good P) a b c, rng P a -> rng P b -> rng P c ->
  srng P (get_A (word_ops P) a b c) /\
  el P HG (get_A (word_ops P) a b c) = get_A (field_ops P (HW P HG) (Hp P HG)) (el P HG a) (el P HG b) (el P HG c).
Proof. exact get_A_word. Qed.
Print Assumptions C23_get_A.

(** [out_rel R a b]: a and b are both [Ok] with R-related values, or the same failure. *)
Theorem C23_all_models : forall P (HG : good P) E, crng P E ->
  out_rel (fun l m => Forall (irng P) l /\ map (iel P HG) l = m)
    (all_models (word_ops P) E) (all_models (field_ops P (HW P HG) (Hp P HG)) (cel P HG E)).
Proof. exact all_models_word. Qed.
Print Assumptions C23_all_models.

Theorem C23_canonical_model : forall P (HG : good P) E, crng P E ->
  out_rel (fun i j => irng P i /\ iel P HG i = j)
    (canonical_model (word_ops P) E) (canonical_model (field_ops P (HW P HG) (Hp P HG)) (cel P HG E)).
Proof. exact canonical_word. Qed.
Print Assumptions C23_canonical_model.

Theorem C23_eval_iso : forall P (HG : good P) i Q, irng P i -> prng P Q ->
  prng P (eval_iso (word_ops P) i Q) /\
  pel P HG (eval_iso (word_ops P) i Q) = eval_iso (field_ops P (HW P HG) (Hp P HG)) (iel P HG i) (pel P HG Q).
Proof. exact eval_iso_word. Qed.
Print Assumptions C23_eval_iso.

Theorem C23_Ladder : forall P (HG : good P) w Q m A N, prng P Q -> rng P A ->
  out_rel (fun R R' => prng P R /\ pel P HG R = R')
    (Ladder (word_ops P) w Q m A N) (Ladder (field_ops P (HW P HG) (Hp P HG)) w (pel P HG Q) m (el P HG A) N).
Proof. exact Ladder_word. Qed.
Print Assumptions C23_Ladder.

(** The formulas themselves, over any field: doubling and tripling as polynomials in X, Z. *)
Theorem C23_formulas : forall (F : fld) unit sqrt lt enc dec rnd (X Z a c : F),
  let O := fld_ops F unit sqrt lt enc dec rnd in
  (xDBL O (@mkPt O X Z) a c =
   @mkPt O (c * ((X + Z) * (X + Z) * ((X - Z) * (X - Z)))) (4 * (X * Z) * (c * ((X - Z) * (X - Z)) + 4 * (a * (X * Z)))))%F /\
  (xTPL O (@mkPt O X Z) a c =
   let m := (X - Z) * (X - Z) in let q := (X + Z) * (X + Z) in
   let u := m * (a * m) - q * (c * q) in let v := (4 * (X * X) - q - m) * (c * q - a * m) in
   @mkPt O (2 * X * ((u + v) * (u + v))) (2 * Z * ((u - v) * (u - v))))%F.
Proof. exact formulas_ok. Qed.
Print Assumptions C23_formulas.

(** Elements a + b i and affine coordinates for the examples with the toy modulus 62207. *)
Definition tx (a b : Z) : f2elm := fp2_decode Ptoy (fp2zero_w Ptoy) (toB 256 2 a ++ toB 256 2 b).
Definition tp (a b : Z) : pt (word_ops Ptoy) := @mkPt (word_ops Ptoy) (tx a b) (tx 1 0).
Definition tv (x : f2elm) : Z * Z := (valB 256 (firstn 2 (fp2_encode Ptoy x)), valB 256 (skipn 2 (fp2_encode Ptoy x))).
Definition tq2 (x z : f2elm) : Z * Z := tv (fp2mul_mont Ptoy x (fp2inv_mont Ptoy z)).
Definition taff (Q : pt (word_ops Ptoy)) : Z * Z := tq2 (pX Q) (pZ Q).
(** j-invariant of y^2 = x^3 + 6 x^2 + x and the inverses of 2, 3 + i, 5, computed on digit arrays. *)
Example C23_example :
  tv (j_inv (word_ops Ptoy) (tx 6 0) (tx 1 0)) = (38668, 0) /\ (38668 * (6 * 6 - 4)) mod 62207 = (256 * (6 * 6 - 3) ^ 3) mod 62207 /\
  tv (fst (fst (inv_3_way (word_ops Ptoy) (tx 2 0) (tx 3 1) (tx 5 0)))) = (31104, 0) /\ (31104 * 2) mod 62207 = 1.
Proof. vm_compute. repeat split; reflexivity. Qed.

(** * C24: square roots *)
Theorem C24_fp2sqrt : forall P (HG : good P) x, srng P x ->
  let r := fp2sqrt (word_ops P) x false in
  rng P (fst r) /\
  (snd r = true -> kmul (el P HG (fst r)) (el P HG (fst r)) = el P HG x) /\
  (snd r = false -> forall z : GF P HG, kmul z z <> el P HG x).
Proof. exact sqrt_word. Qed.
Print Assumptions C24_fp2sqrt.

Theorem C24_fp2sqrt_known : forall P (HG : good P) x, srng P x ->
  let r := fp2sqrt (word_ops P) x true in
  rng P (fst r) /\ snd r = true /\
  (forall z : GF P HG, kmul z z = el P HG x -> kmul (el P HG (fst r)) (el P HG (fst r)) = el P HG x).
Proof. exact sqrt_known_word. Qed.
Print Assumptions C24_fp2sqrt_known.

(** (3 + 4i) = (2 + i)^2; -1 = i^2; a non-square; a real element. *)
Example C24_example :
  tv (fst (fp2sqrt (word_ops Ptoy) (tx 3 4) false)) = (62205, 62206) /\ snd (fp2sqrt (word_ops Ptoy) (tx 3 4) false) = true /\
  tv (fst (fp2sqrt (word_ops Ptoy) (tx 62206 0) false)) = (0, 1) /\
  snd (fp2sqrt (word_ops Ptoy) (tx 1 1) false) = true /\ snd (fp2sqrt (word_ops Ptoy) (tx 1 3) false) = false /\
  Zpow_mod (1 * 1 + 3 * 3) ((62207 - 1) / 2) 62207 = 62206.
Proof. vm_compute. repeat split; reflexivity. Qed.

(** * C53: the chord-and-tangent law is an abelian group *)
Theorem C53_group : forall (F : fld), (kadd k1 k1 : F) <> k0 ->
  forall A B : F, (A * A <> 4)%F -> B <> k0 ->
  let G := on A B in
  (forall M N, G M -> G N -> G (padd A B M N)) /\
  (forall M, G M -> G (neg M)) /\
  (forall M N, G M -> G N -> padd A B M N = padd A B N M) /\
  (forall M N R, G M -> G N -> G R -> padd A B (padd A B M N) R = padd A B M (padd A B N R)) /\
  (forall M, padd A B Inf M = M /\ padd A B M Inf = M) /\
  (forall M, G M -> padd A B M (neg M) = Inf).
Proof. exact group_ok. Qed.
Print Assumptions C53_group.

Theorem C53_multiples : forall (F : fld), (kadd k1 k1 : F) <> k0 ->
  forall A B : F, (A * A <> 4)%F -> B <> k0 -> forall M, on A B M -> forall m n : nat,
  pmul A B (m + n) M = padd A B (pmul A B m M) (pmul A B n M) /\
  pmul A B (m * n) M = pmul A B m (pmul A B n M).
Proof. exact multiples_ok. Qed.
Print Assumptions C53_multiples.

(** * C25: doubling, tripling, differential addition against the group law *)
Theorem C25_xDBL : forall P (HG : good P) (A B : GF P HG), (A * A <> 4)%F -> B <> k0 ->
  forall Q M a c, repr P HG Q M -> on A B M -> rng P a -> rng P c -> el P HG c <> k0 ->
  (4 * el P HG a = (A + 2) * el P HG c)%F ->
  repr P HG (xDBL (word_ops P) Q a c) (padd A B M M).
Proof. exact xDBL_group. Qed.
Print Assumptions C25_xDBL.

Theorem C25_xTPL : forall P (HG : good P) (A B : GF P HG), (A * A <> 4)%F -> B <> k0 ->
  forall Q M am ap s, repr P HG Q M -> on A B M -> rng P am -> rng P ap -> s <> k0 ->
  (el P HG am = (A - 2) * s)%F -> (el P HG ap = (A + 2) * s)%F ->
  repr P HG (xTPL (word_ops P) Q am ap) (padd A B M (padd A B M M)).
Proof. exact xTPL_group. Qed.
Print Assumptions C25_xTPL.

(** (X : Z) stands for M - N; the sum needs X and Z nonzero, i.e. M - N neither infinity nor (0, 0). *)
Theorem C25_xDBLADD : forall P (HG : good P) (A B : GF P HG), (A * A <> 4)%F -> B <> k0 ->
  forall Q R M N X Z a, repr P HG Q M -> repr P HG R N -> on A B M -> on A B N ->
  rng P X -> rng P Z -> rng P a -> (4 * el P HG a = A + 2)%F ->
  xz (el P HG X) (el P HG Z) (padd A B M (neg N)) -> el P HG X <> k0 -> el P HG Z <> k0 ->
  repr P HG (fst (xDBLADD (word_ops P) Q R X Z a)) (padd A B M M) /\
  repr P HG (snd (xDBLADD (word_ops P) Q R X Z a)) (padd A B M N).
Proof. exact xDBLADD_group. Qed.
Print Assumptions C25_xDBLADD.

(** The same over any field of characteristic not 2. *)
Theorem C25_xDBL_field : forall (F : fld) unit sqrt lt enc dec rnd, (kadd k1 k1 : F) <> k0 ->
  forall A B : F, (A * A <> 4)%F -> B <> k0 ->
  let O := fld_ops F unit sqrt lt enc dec rnd in
  forall (P : pt O) (a c : F) (M : point F), on A B M -> xz (pX P : F) (pZ P) M ->
  c <> k0 -> (4 * a = (A + 2) * c)%F ->
  let R := xDBL O P a c in xz (pX R : F) (pZ R) (padd A B M M).
Proof. exact xDBL_ok. Qed.
Print Assumptions C25_xDBL_field.

Theorem C25_xTPL_field : forall (F : fld) unit sqrt lt enc dec rnd, (kadd k1 k1 : F) <> k0 ->
  forall A B : F, (A * A <> 4)%F -> B <> k0 ->
  let O := fld_ops F unit sqrt lt enc dec rnd in
  forall (P : pt O) (am ap s : F) (M : point F), on A B M -> xz (pX P : F) (pZ P) M ->
  s <> k0 -> (am = (A - 2) * s)%F -> (ap = (A + 2) * s)%F ->
  let R := xTPL O P am ap in xz (pX R : F) (pZ R) (padd A B M (padd A B M M)).
Proof. exact xTPL_ok. Qed.
Print Assumptions C25_xTPL_field.

Theorem C25_xADD_field : forall (F : fld) unit sqrt lt enc dec rnd, (kadd k1 k1 : F) <> k0 ->
  forall A B : F, B <> k0 ->
  let O := fld_ops F unit sqrt lt enc dec rnd in
  forall (P Q : pt O) (X Z : F) a (M N : point F), on A B M -> on A B N ->
  xz (pX P : F) (pZ P) M -> xz (pX Q : F) (pZ Q) N -> xz X Z (padd A B M (neg N)) -> X <> k0 -> Z <> k0 ->
  let R := snd (xDBLADD O P Q X Z a) in xz (pX R : F) (pZ R) (padd A B M N).
Proof. exact xADD_ok. Qed.
Print Assumptions C25_xADD_field.

(** x = 5 + 7i on B y^2 = x^3 + 6 x^2 + x: twice and three times the point, in the toy field (values
    computed independently with the chord-and-tangent formulas). *)
Example C25_example :
  taff (xDBL (word_ops Ptoy) (tp 5 7) (tx 8 0) (tx 4 0)) = (4626, 1437) /\
  taff (xTPL (word_ops Ptoy) (tp 5 7) (tx 4 0) (tx 8 0)) = (3746, 19007) /\
  taff (snd (xDBLADD (word_ops Ptoy) (tp 4626 1437) (tp 5 7) (tx 5 7) (tx 1 0) (tx 2 0))) = (3746, 19007).
Proof. vm_compute. repeat split; reflexivity. Qed.

(** * C26: the ladder *)
(** Partial: points other than infinity and (0, 0). *)
Theorem C26_Ladder_partial : forall P (HG : good P) (A B : GF P HG), (A * A <> 4)%F -> B <> k0 ->
  forall w Q M m a N, repr P HG Q M -> on A B M -> rng P a -> el P HG a = A -> 0 < w -> digits (2 ^ w) m ->
  (N <= Z.to_nat w * length m)%nat -> el P HG (pX Q) <> k0 -> el P HG (pZ Q) <> k0 ->
  exists R, Ladder (word_ops P) w Q m a N = Ok R /\
    repr P HG R (pmul A B (Z.to_nat (valB (2 ^ w) m mod 2 ^ Z.of_nat N)) M).
Proof. exact Ladder_group. Qed.
Print Assumptions C26_Ladder_partial.

(** At (0, 0), a point of every curve, the ladder is wrong: the scalar 1 gives (0 : 0), which stands for no point. *)
Theorem C26_Ladder_at_zero_refuted : forall (F : fld) unit sqrt lt enc dec rnd (A : F),
  let O := fld_ops F unit sqrt lt enc dec rnd in
  exists R, Ladder O 64 (@mkPt O k0 k1) [1] A 1 = Ok R /\ (pX R : F) = k0 /\ (pZ R : F) = k0.
Proof. exact Ladder_zero. Qed.
Print Assumptions C26_Ladder_at_zero_refuted.

(** 1000003 times the point with x = 5 + 7i. *)
Example C26_example :
  match Ladder (word_ops Ptoy) 8 (tp 5 7) [67; 66; 15] (tx 6 0) 24 with Ok R => taff R | _ => (0, 0) end = (41074, 61599) /\
  valB (2 ^ 8) [67; 66; 15] = 1000003.
Proof. vm_compute. repeat split; reflexivity. Qed.

(** * C27: the isogeny formulas *)
(** [phi2 k], [phi3 k], [phi4 k] (IsogSpec.v) are explicit maps on points; A2, A3, A4 and B2, B3, B4 the
    coefficients of the codomain.  The maps take the curve to the codomain, which is again nonsingular;
    exactly the kernel goes to infinity; doubling and tripling are respected up to sign. *)
Theorem C27_isogeny2 : forall (F : fld), (kadd k1 k1 : F) <> k0 -> forall A B : F, (A * A <> 4)%F -> B <> k0 ->
  forall k : F, k <> k0 -> on A B (Aff k k0) ->
  ((A2 k * A2 k <> 4)%F /\ B2 k B <> k0) /\
  (forall M, on A B M -> on (A2 k) (B2 k B) (phi2 k M)) /\
  (forall M, on A B M -> (phi2 k M = Inf <-> M = Inf \/ M = Aff k k0)) /\
  (forall M, on A B M -> xeq (phi2 k (padd A B M M)) (let R := phi2 k M in padd (A2 k) (B2 k B) R R)) /\
  (forall M, on A B M -> xeq (phi2 k (padd A B M (padd A B M M)))
     (let R := phi2 k M in padd (A2 k) (B2 k B) R (padd (A2 k) (B2 k B) R R))).
Proof. exact isog2_ok. Qed.
Print Assumptions C27_isogeny2.

Theorem C27_isogeny3 : forall (F : fld), (kadd k1 k1 : F) <> k0 -> forall A B : F, (A * A <> 4)%F -> B <> k0 ->
  forall k yk : F, on A B (Aff k yk) -> padd A B (Aff k yk) (padd A B (Aff k yk) (Aff k yk)) = Inf ->
  ((A3 A k * A3 A k <> 4)%F /\ B3 k B <> k0) /\
  (forall M, on A B M -> on (A3 A k) (B3 k B) (phi3 k M)) /\
  (forall M, on A B M -> (phi3 k M = Inf <-> M = Inf \/ M = Aff k yk \/ M = neg (Aff k yk))) /\
  (forall M, on A B M -> xeq (phi3 k (padd A B M M)) (let R := phi3 k M in padd (A3 A k) (B3 k B) R R)) /\
  (forall M, on A B M -> xeq (phi3 k (padd A B M (padd A B M M)))
     (let R := phi3 k M in padd (A3 A k) (B3 k B) R (padd (A3 A k) (B3 k B) R R))).
Proof. exact isog3_ok. Qed.
Print Assumptions C27_isogeny3.

Theorem C27_isogeny4 : forall (F : fld), (kadd k1 k1 : F) <> k0 -> forall A B : F, (A * A <> 4)%F -> B <> k0 ->
  forall k yk m : F, on A B (Aff k yk) -> padd A B (Aff k yk) (Aff k yk) = Aff m k0 -> m <> k0 ->
  ((A4 k * A4 k <> 4)%F /\ B4 k B <> k0) /\
  (forall M, on A B M -> on (A4 k) (B4 k B) (phi4 k M)) /\
  (forall M, on A B M -> (phi4 k M = Inf <-> M = Inf \/ M = Aff k yk \/ M = neg (Aff k yk) \/ M = Aff m k0)) /\
  (forall M, on A B M -> xeq (phi4 k (padd A B M M)) (let R := phi4 k M in padd (A4 k) (B4 k B) R R)) /\
  (forall M, on A B M -> xeq (phi4 k (padd A B M (padd A B M M)))
     (let R := phi4 k M in padd (A4 k) (B4 k B) R (padd (A4 k) (B4 k B) R R))).
Proof. exact isog4_ok. Qed.
Print Assumptions C27_isogeny4.

(** The functions on digit arrays compute these maps and coefficients. *)
Theorem C27_code2 : forall P (HG : good P) (A B : GF P HG), (A * A <> 4)%F -> forall k K,
  repr P HG K (Aff k k0) ->
  (let g := get_2_isog (word_ops P) K in
   el P HG (snd g) <> k0 /\ (4 * el P HG (fst g) = (A2 k + 2) * el P HG (snd g))%F) /\
  (on A B (Aff k k0) -> k <> k0 -> forall Q M, repr P HG Q M -> repr P HG (eval_2_isog (word_ops P) Q K) (phi2 k M)).
Proof. exact code2_ok. Qed.
Print Assumptions C27_code2.

Theorem C27_code3 : forall P (HG : good P) (A B : GF P HG), (A * A <> 4)%F -> B <> k0 -> forall k yk K,
  repr P HG K (Aff k yk) -> on A B (Aff k yk) -> padd A B (Aff k yk) (padd A B (Aff k yk) (Aff k yk)) = Inf ->
  let g := get_3_isog (word_ops P) K in
  (rng P (fst (fst g)) /\ rng P (snd (fst g)) /\ exists s : GF P HG, s <> k0 /\
   (el P HG (fst (fst g)) = (A3 A k - 2) * s)%F /\ (el P HG (snd (fst g)) = (A3 A k + 2) * s)%F) /\
  (forall Q M, repr P HG Q M -> repr P HG (eval_3_isog (word_ops P) (snd g) Q) (phi3 k M)).
Proof. exact code3_ok. Qed.
Print Assumptions C27_code3.

Theorem C27_code4 : forall P (HG : good P) (A B : GF P HG), (A * A <> 4)%F -> B <> k0 -> forall k yk m K,
  repr P HG K (Aff k yk) -> on A B (Aff k yk) -> padd A B (Aff k yk) (Aff k yk) = Aff m k0 -> m <> k0 ->
  let g := get_4_isog (word_ops P) K in
  (rng P (fst (fst g)) /\ rng P (snd (fst g)) /\ el P HG (snd (fst g)) <> k0 /\
   (4 * el P HG (fst (fst g)) = (A4 k + 2) * el P HG (snd (fst g)))%F) /\
  (forall Q M, repr P HG Q M -> repr P HG (eval_4_isog (word_ops P) (snd g) Q) (phi4 k M)).
Proof. exact code4_ok. Qed.
Print Assumptions C27_code4.

(** Toy field, y^2 = x^3 + 6 x^2 + x: 46056 has order 4 (its double is 50615), 54412 order 3; the images of
    29457 + 30949 i and the codomain coefficients 4 a/c - 2 resp. 2 (p+m)/(p-m). *)
Example C27_example :
  taff (xDBL (word_ops Ptoy) (tp 46056 0) (tx 8 0) (tx 4 0)) = (50615, 0) /\
  taff (eval_4_isog (word_ops Ptoy) (snd (get_4_isog (word_ops Ptoy) (tp 46056 0))) (tp 29457 30949)) = (12057, 7312) /\
  (let g := fst (get_4_isog (word_ops Ptoy) (tp 46056 0)) in
   tq2 (fst g) (snd g)) = (19984, 0) /\ (4 * 19984 - 2) mod 62207 = 17727 /\
  taff (eval_3_isog (word_ops Ptoy) (snd (get_3_isog (word_ops Ptoy) (tp 54412 0))) (tp 29457 30949)) = (581, 6086) /\
  taff (eval_2_isog (word_ops Ptoy) (tp 29457 30949) (tp 50615 0)) = (23729, 26193).
Proof. vm_compute. repeat split; reflexivity. Qed.

(** * C29: j-invariant *)
Theorem C29_j_inv : forall P (HG : good P) a c, rng P a -> rng P c -> el P HG c <> k0 ->
  (el P HG a * el P HG a <> 4 * (el P HG c * el P HG c))%F ->
  srng P (j_inv (word_ops P) a c) /\ el P HG (j_inv (word_ops P) a c) = jinv (el P HG a) (el P HG c).
Proof. exact j_inv_group. Qed.
Print Assumptions C29_j_inv.

(** [nons P HG E]: in range, C <> 0 and (A/C)^2 <> 4; [coef P HG E] = A/C; [qenc] are the little-endian bytes
    of the two least non-negative components. *)
Theorem C29_enc_j : forall P (HG : good P) E, nons P HG E ->
  enc_j (word_ops P) E = qenc P (HW P HG) (Hp P HG) (jinv (coef P HG E) k1).
Proof. exact enc_j_bytes. Qed.
Print Assumptions C29_enc_j.

Theorem C29_isomorphic : forall P (HG : good P) E E', nons P HG E -> nons P HG E' ->
  isomorphic (coef P HG E) (coef P HG E') -> enc_j (word_ops P) E = enc_j (word_ops P) E'.
Proof. exact enc_j_same. Qed.
Print Assumptions C29_isomorphic.

(** and conversely, on curves with rational 4-torsion *)
Theorem C29_isomorphic_conv : forall P (HG : good P) E E', nons P HG E -> nons P HG E' -> full4 (coef P HG E) ->
  enc_j (word_ops P) E = enc_j (word_ops P) E' -> isomorphic (coef P HG E) (coef P HG E').
Proof. exact enc_j_iso. Qed.
Print Assumptions C29_isomorphic_conv.

Example C29_example : enc_j (word_ops Ptoy) (@mkCurve (word_ops Ptoy) (tx 6 0) (tx 1 0)) = toB 256 2 38668 ++ toB 256 2 0 /\
  enc_j (word_ops Ptoy) (@mkCurve (word_ops Ptoy) (tx 41106 0) (tx 1 0)) = toB 256 2 38668 ++ toB 256 2 0 /\
  enc_j (word_ops Ptoy) (@mkCurve (word_ops Ptoy) (tx 0 18545) (tx 1 0)) = toB 256 2 38668 ++ toB 256 2 0.
Proof. vm_compute. repeat split; reflexivity. Qed.

(** * C30: canonical model *)
(** [least P HG A B]: B is the least coefficient, in the order on (real part, imaginary part), of a
    Montgomery curve isomorphic to that with coefficient A. *)
Theorem C30_canonical_model : forall P (HG : good P) E, crng P E -> el P HG (cC E) <> k0 -> full4 (coef P HG E) ->
  exists i, canonical_model (word_ops P) E = Ok i /\ irng P i /\
    iso_to (coef P HG E) (el P HG (iB i)) (el P HG (ir i)) (el P HG (iu2 i)) /\ least P HG (coef P HG E) (el P HG (iB i)).
Proof. exact canonical_group. Qed.
Print Assumptions C30_canonical_model.

Theorem C30_pack : forall P (HG : good P) E, crng P E -> el P HG (cC E) <> k0 -> full4 (coef P HG E) ->
  exists B, least P HG (coef P HG E) B /\ pack_curve (word_ops P) E = Ok (qenc P (HW P HG) (Hp P HG) B).
Proof. exact pack_curve_group. Qed.
Print Assumptions C30_pack.

Theorem C30_pack_invariant : forall P (HG : good P) E E', crng P E -> el P HG (cC E) <> k0 ->
  crng P E' -> el P HG (cC E') <> k0 -> full4 (coef P HG E) ->
  isomorphic (coef P HG E) (coef P HG E') -> pack_curve (word_ops P) E = pack_curve (word_ops P) E'.
Proof. exact pack_curve_same. Qed.
Print Assumptions C30_pack_invariant.

Theorem C30_pack_idempotent : forall P (HG : good P) E b, crng P E -> el P HG (cC E) <> k0 -> full4 (coef P HG E) ->
  pack_curve (word_ops P) E = Ok b ->
  elem_ok P b /\ isomorphic (coef P HG E) (coef P HG (unpack_curve (word_ops P) b)) /\
  pack_curve (word_ops P) (unpack_curve (word_ops P) b) = Ok b.
Proof. exact pack_idem. Qed.
Print Assumptions C30_pack_idempotent.

(** The change of coordinates on points, and that it is an isomorphism of groups. *)
Theorem C30_eval_iso : forall P (HG : good P) i A Q M, irng P i -> iso_to A (el P HG (iB i)) (el P HG (ir i)) (el P HG (iu2 i)) ->
  repr P HG Q M -> repr P HG (eval_iso (word_ops P) i Q) (iso_pt (GF P HG) (el P HG (ir i)) (el P HG (iu2 i)) M).
Proof. exact eval_iso_group. Qed.
Print Assumptions C30_eval_iso.

Theorem C30_iso_homomorphism : forall (F : fld) (A A' B r u : F), (kadd k1 k1 : F) <> k0 -> iso_to A A' r u -> B <> k0 ->
  let B' := (B / (u * u * u))%F in
  (forall M, on A B M <-> on A' B' (iso_pt F r u M)) /\
  (forall M N, iso_pt F r u (padd A B M N) = padd A' B' (iso_pt F r u M) (iso_pt F r u N)) /\
  (forall M N, iso_pt F r u M = iso_pt F r u N -> M = N) /\ (forall N, exists M, iso_pt F r u M = N).
Proof. exact iso_hom. Qed.
Print Assumptions C30_iso_homomorphism.

(** The six models of coefficient 6 in the toy field and the one that is packed. *)
Example C30_example :
  match all_models (word_ops Ptoy) (@mkCurve (word_ops Ptoy) (tx 6 0) (tx 1 0)) with Ok l => map (fun i : miso (word_ops Ptoy) => tv (iB i)) l | _ => [] end =
    [(6, 0); (62201, 0); (0, 18545); (0, 43662); (41106, 0); (21101, 0)] /\
  pack_curve (word_ops Ptoy) (@mkCurve (word_ops Ptoy) (tx 6 0) (tx 1 0)) = Ok (toB 256 2 0 ++ toB 256 2 18545) /\
  pack_curve (word_ops Ptoy) (@mkCurve (word_ops Ptoy) (tx 0 43662) (tx 1 0)) = Ok (toB 256 2 0 ++ toB 256 2 18545).
Proof. vm_compute. repeat split; reflexivity. Qed.

(** * C31: the array of models *)
(** Partial: curves with rational 4-torsion.  Exactly six entries, every one a model. *)
Theorem C31_all_models_partial : forall P (HG : good P) E, crng P E -> el P HG (cC E) <> k0 -> full4 (coef P HG E) ->
  exists l, all_models (word_ops P) E = Ok l /\ length l = 6%nat /\ Forall (irng P) l /\
    Forall (fun i : miso (word_ops P) => iso_to (coef P HG E) (el P HG (iB i)) (el P HG (ir i)) (el P HG (iu2 i))) l /\
    forall B, isomorphic (coef P HG E) B -> In B (map (fun i : miso (word_ops P) => el P HG (iB i)) l).
Proof. exact all_models_group. Qed.
Print Assumptions C31_all_models_partial.

(** Any coefficient: six entries, or the loop that runs over the array. *)
Theorem C31_six_or_overrun : forall P (HG : good P) E, crng P E ->
  (exists l, all_models (word_ops P) E = Ok l /\ length l = 6%nat) \/ all_models (word_ops P) E = UB.
Proof. exact all_models_any. Qed.
Print Assumptions C31_six_or_overrun.

(** The claim is false for the singular coefficients 2 and -2. *)
Theorem C31_singular_refuted : forall P (HG : good P) E, crng P E -> (coef P HG E * coef P HG E = 4)%F ->
  all_models (word_ops P) E = UB.
Proof. exact all_models_singular. Qed.
Print Assumptions C31_singular_refuted.

Example C31_example :
  match all_models (word_ops Ptoy) (@mkCurve (word_ops Ptoy) (tx 62205 0) (tx 1 0)) with UB => true | _ => false end = true /\
  match all_models (word_ops Ptoy) (@mkCurve (word_ops Ptoy) (tx 17727 0) (tx 1 0)) with Ok l => map (fun i : miso (word_ops Ptoy) => tv (iB i)) l | _ => [] end =
  [(17727, 0); (44480, 0); (42786, 27068); (19421, 35139); (42786, 35139); (19421, 27068)].
Proof. vm_compute. repeat split; reflexivity. Qed.
