(** Property theorems C56, C57: the number of points of the curves, and the verdict of the verifier. *)
From Coq Require Import Znumtheory.
From Verif Require Import Base BaseP Digits Out Params Fp Wf Poik Hashing Codec CodecSpec Fld FpRep FpMisc FpMiscP FpInst
  Ops Ec Models Proto Sim ModelsSim ProtoSim WordOps FieldOps WordSim CurveSpec IsogSpec ModelSpec OrderSpec ProtoSpec WalkSpec WordCurve WordModels WordCheck XIsog WordIsog ChainP WordWalk PolyEv Hasse SupSpec WordMax WordVerify Toy ZOps ToyRun ToyMax.

(** Vocabulary: [all_points A k1 l] (OrderSpec.v): the list l contains every point of y^2 = x^3 + A x^2 + x exactly once, the point at
    infinity included; [hasse p n]: |n - (p^2 + 1)| <= 2p; [maximal p A], [maximalP P HG A] (SupSpec.v, WordMax.v): A^2 <> 4 and this curve has
    (p+1)^2 points; [isog_class] (WalkSpec.v): rational points of order 4, closed under isomorphisms and the isogenies of degree 2, 3, 4. *)

(** * C56: the curves with (p+1)^2 points *)
(** Hasse's theorem for Montgomery curves over a field with p^2 elements. *)
Theorem C56_hasse_any : forall (F : fld), (kadd k1 k1 : F) <> k0 ->
  forall elems : list F, NoDup elems -> (forall x, In x elems) ->
  forall p m, prime (Z.of_nat p) -> (kn p : F) = k0 -> length elems = (p * p)%nat -> (p * p = 2 * m + 1)%nat ->
  forall A : F, kmul A A <> 4%F -> forall l, all_points A k1 l -> hasse (Z.of_nat p) (Z.of_nat (length l)).
Proof. exact hasse_bound. Qed.
Print Assumptions C56_hasse_any.
(** The same for the field of the code. *)
Theorem C56_hasse : forall P (HG : good P) (A : GF P HG) l, kmul A A <> 4%F -> all_points A k1 l -> hasse (par_p P) (Z.of_nat (length l)).
Proof. exact hasse_GF. Qed.
Print Assumptions C56_hasse.
Theorem C56_points : forall P (HG : good P) (A : GF P HG), kmul A A <> 4%F -> exists l, all_points A k1 l.
Proof. exact points_GF. Qed.
Print Assumptions C56_points.
(** The curves with (p+1)^2 points: closed under isomorphisms and isogenies, with all points of order 4 (x-coordinates) over GF(p^2). *)
Theorem C56_class : forall P (HG : good P), isog_class (maximalP P HG).
Proof. exact max_class. Qed.
Print Assumptions C56_class.
(** p+1 kills their points. *)
Theorem C56_exponent : forall P (HG : good P) (A : GF P HG) M, maximalP P HG A -> on A k1 M -> pmul A k1 (Z.to_nat (par_p P + 1)) M = Inf.
Proof. exact max_kill. Qed.
Print Assumptions C56_exponent.
(** A certificate of the kind that Check_Curve finds exists only on them. *)
Theorem C56_certificate : forall P (HG : good P) (A : GF P HG), kmul A A <> 4%F -> certified P A -> maximalP P HG A.
Proof. exact max_cert. Qed.
Print Assumptions C56_certificate.
(** The check of a packed curve decides membership. *)
Theorem C56_packed : forall K (HG : good (fpar K)), rand_ok (fpar K) -> exps32 (fpar K) ->
  forall junk a tp b t, elem_ok (fpar K) a -> check_packed K (word_ops (fpar K)) junk a tp = Ok (b, t) ->
  (b = true <-> maximalP (fpar K) HG (valueP (fpar K) HG a)).
Proof. exact check_packed_exact. Qed.
Print Assumptions C56_packed.
(** p = 10616831: y^2 = x^3 + 6 x^2 + x has (p+1)^2 points over GF(p^2), y^2 = x^3 + x^2 + x has not. *)
Example C56_example : par_p Ptoy2 = 10616831 /\
  (exists l, all_points (valueP Ptoy2 good_toy2 [6; 0; 0; 0; 0; 0]) k1 l /\ Z.of_nat (length l) = 112717121716224) /\
  ~ maximalP Ptoy2 good_toy2 (valueP Ptoy2 good_toy2 [1; 0; 0; 0; 0; 0]).
Proof. split; [vm_compute; reflexivity|]. split; [exact six_points|exact one_not]. Qed.

(** * C57: the verdict of Verify depends on the proof only *)
(** Not on the random bytes, the uninitialised memory or the bound on the squeezed blocks. *)
Theorem C57_verdict : forall K (HG : good (fpar K)), rand_ok (fpar K) -> strat_good (fpar K) -> exps32 (fpar K) ->
  forall junk junk' fuel fuel' prf tp tp' tps tps' b b', wf_proof K prf ->
  Verify K (word_ops (fpar K)) junk fuel prf tp tps = Ok b -> Verify K (word_ops (fpar K)) junk' fuel' prf tp' tps' = Ok b' -> b = b'.
Proof. exact Verify_verdict. Qed.
Print Assumptions C57_verdict.
(** No run on the accepted toy proof rejects it. *)
Example C57_example : forall junk fuel tp tps b, Verify K_toy (word_ops Ptoy2) junk fuel prf_toy tp tps = Ok b -> b = true.
Proof.
  intros junk fuel tp tps b H.
  exact (C57_verdict K_toy good_toy2 rand_toy2 toy_strat toy_exps junk junk fuel 5 prf_toy tp tp_toy tps tps_toy b true wf_prf_toy H (toy_accepted junk)).
Qed.
