(** Property theorems C32, C33: the order certificate and the curve check. *)
From Coq Require Import Znumtheory.
From Verif Require Import Base BaseP Digits Out Params Fp Wf Fld FpRep FpMisc FpMiscP FpInst Ops Ec Models Sim ModelsSim WordOps FieldOps WordSim
  CurveSpec OrderSpec WordCurve CheckP OrderP WordCheck SupSpec WordMax Toy ZOps ToyRun.

(** Vocabulary: [exps32 P] the exponents e2, e3 fit in 32 bits; [has_order], [independent4], [all_points], [hasse]
    from OrderSpec.v; [el P HG a] the element of GF(p^2) that the digit arrays a represent (Montgomery form); [crng P E] the
    coordinates of E are digit arrays of values below 2p; [maximalP P HG A] (SupSpec.v) this curve is nonsingular and has (p+1)^2 points;
    [certified P A] (WordCheck.v) the curve y^2 = x^3 + A x^2 + x has
    independent points of orders 2^a, 2^b, 3^c, 3^d with 4 (p + 1) < 2^(a+b) 3^(c+d). *)

(** * C32: the integer test of the order certificate *)
(** Even where the arithmetic of unsigned long wraps around. *)
Theorem C32_sound : forall P, good P -> exps32 P -> forall a b, 0 <= a -> 0 <= b ->
  proves_order P a b = true -> 4 * (par_p P + 1) < 2 ^ a * 3 ^ b.
Proof. exact order_sound. Qed.
Print Assumptions C32_sound.

(** It does not wrap around for exponents below 2^32. *)
Theorem C32_no_wrap : forall P, exps32 P -> forall a b, 0 <= a < 2 ^ 32 -> 0 <= b < 2 ^ 32 ->
  (proves_order P a b = true <-> 665 * (2 + Z.of_nat (e2 P)) + 1055 * Z.of_nat (e3 P) < 665 * a + 1054 * b).
Proof. exact order_exact. Qed.
Print Assumptions C32_no_wrap.

(** The points Check_Curve finds have orders at most 2^e2 and 3^e3: a group order in the Hasse interval is then (p + 1)^2. *)
Theorem C32_hasse : forall P, good P -> exps32 P -> forall a b n,
  0 <= a <= 2 * Z.of_nat (e2 P) -> 0 <= b <= 2 * Z.of_nat (e3 P) -> proves_order P a b = true ->
  hasse (par_p P) n -> (2 ^ a * 3 ^ b | n) -> n = (par_p P + 1) * (par_p P + 1).
Proof. exact order_group. Qed.
Print Assumptions C32_hasse.

(** The largest exponents are accepted, so a supersingular curve with full torsion can be accepted. *)
Theorem C32_full : forall P, exps32 P -> 4 <= Z.of_nat (e2 P) -> proves_order P (2 * Z.of_nat (e2 P)) (2 * Z.of_nat (e3 P)) = true.
Proof. exact order_full. Qed.
Print Assumptions C32_full.

Theorem C32_configurations : forall P,
  In P [P434 T64; P503 T64; P610 T64; P751 T64; P434 T32; P503 T32; P610 T32; P751 T32] -> good P /\ exps32 P /\ 4 <= Z.of_nat (e2 P).
Proof. exact order_configurations. Qed.
Print Assumptions C32_configurations.

(** The boundary for p434 with the exponents 216 and 137: two independent points of order 2^216 suffice together with one of order 3^3, not with one of order 3^2. *)
Example C32_example : proves_order (P434 T64) 432 3 = true /\ proves_order (P434 T64) 432 2 = false /\
  4 * (2 ^ 216 * 3 ^ 137) < 2 ^ 432 * 3 ^ 3 /\ proves_order (P434 T64) 218 138 = true /\ proves_order (P434 T64) 218 137 = false.
Proof. vm_compute. repeat split. Qed.
(** Beyond the range of the exponents the arithmetic does wrap around. *)
Example C32_wrap : proves_order (P434 T64) (2 ^ 64) 0 = false.
Proof. reflexivity. Qed.

(** * C33: Check_Curve *)
Theorem C33_accept : forall P (HG : good P), rand_ok P -> exps32 P -> forall junk E tp tp', crng P E -> el P HG (cC E) = k1 ->
  Check_Curve (word_ops P) P junk E tp = Ok (true, tp') ->
  (el P HG (cA E) * el P HG (cA E) <> 4)%F /\ certified P (el P HG (cA E)).
Proof. exact Check_accept. Qed.
Print Assumptions C33_accept.

(** An accepted curve has (p + 1)^2 points. *)
Theorem C33_count : forall P (HG : good P), rand_ok P -> exps32 P -> forall junk E tp tp' l, crng P E -> el P HG (cC E) = k1 ->
  Check_Curve (word_ops P) P junk E tp = Ok (true, tp') ->
  all_points (el P HG (cA E)) k1 l -> Z.of_nat (length l) = (par_p P + 1) * (par_p P + 1).
Proof. exact accept_count. Qed.
Print Assumptions C33_count.

(** Whenever Check_Curve gives an answer, the answer is whether the curve is nonsingular and has (p + 1)^2 points. *)
Theorem C33_exact : forall P (HG : good P), rand_ok P -> exps32 P -> forall junk E tp b tp', crng P E -> el P HG (cC E) = k1 ->
  Check_Curve (word_ops P) P junk E tp = Ok (b, tp') -> (b = true <-> maximalP P HG (el P HG (cA E))).
Proof. exact check_exact. Qed.
Print Assumptions C33_exact.

Theorem C33_never_rejects : forall P (HG : good P), rand_ok P -> forall junk E tp tp', crng P E -> el P HG (cC E) = k1 ->
  (el P HG (cA E) * el P HG (cA E) <> 4)%F ->
  (forall M, on (el P HG (cA E)) k1 M -> pmul (el P HG (cA E)) k1 (Z.to_nat (par_p P + 1)) M = Inf) ->
  Check_Curve (word_ops P) P junk E tp <> Ok (false, tp').
Proof. exact Check_complete. Qed.
Print Assumptions C33_never_rejects.

(** The uninitialised cur2.T, cur3.T do not matter, whatever the field operations are. *)
Theorem C33_uninitialised : forall O P junk junk' E tp, Check_Curve O P junk E tp = Check_Curve O P junk' E tp.
Proof. exact Check_Curve_junk. Qed.
Print Assumptions C33_uninitialised.

Definition verdict {A} (o : out (bool * A)) : option bool := match o with Ok (b, _) => Some b | _ => None end.
(** p = 2^17 3^4 - 1 over the integer operations that simulate the digit arrays (ZOps.v): the curve A = 6 is accepted,
    A = 1 (not supersingular) and the singular A = 2 are rejected, too few random bytes give no answer. *)
Example C33_example :
  let check a tp := verdict (Check_Curve OZ Ptoy2 junkz (@mkCurve OZ (o_add OZ (Nat.iter a (o_add OZ (o_one OZ)) (o_zero OZ)) (o_zero OZ)) (o_one OZ)) tp) in
  check 6%nat tp_toy = Some true /\ check 1%nat tp_toy = Some false /\ check 2%nat tp_toy = Some false /\ check 6%nat [1; 2; 3] = None.
Proof. vm_cast_no_check (conj (eq_refl (Some true)) (conj (eq_refl (Some false)) (conj (eq_refl (Some false)) (eq_refl (@None bool))))). Qed.
