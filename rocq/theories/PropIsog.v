(** Property theorems C28, C42: the strategy loops and the isogeny functions Isogeny_A, Isogeny_B. *)
From Coq Require Import Znumtheory.
From Verif Require Import Base BaseP Digits Out Params Fp Wf Fld FpRep FpMisc FpMiscP FpInst Ops Ec Models Sim ModelsSim WordOps FieldOps WordSim
  CurveSpec IsogSpec ModelSpec XSpec OrderSpec WordCurve Strategy XLine XIso XIsog WordIsog Toy ZOps ToyRun.

(** Vocabulary: [el P HG a] the element of GF(p^2) that the digit arrays a represent; [coef P HG E] the coefficient A = cA/cC of
    the curve; [crng], [psrng] the digit arrays are in range (at most 2p, below 2p); [repr P HG Q M] Q = (X : Z) is the point M up to
    sign; [repx P HG Q q] the same for an x-coordinate q of XSpec.v (infinity included); [orepx] for an optional point;
    [nons P HG E] a nonsingular curve with digit arrays in range; [full4 A] the points of order 4 are rational;
    [xord2 A n q], [xord3 A n q] q has exact order 2^n, 3^n; [chain3 n A q r] = Some (A', r'): the curve A' and the image r' of r
    after n steps of degree 3 with kernel generated by q, every kernel recomputed by n - 1, n - 2, ... triplings;
    [quotient2 n A q r A' r'] the same for degree 2^n (one step of degree 2 if n is odd, then degree 4), in an isomorphic model
    where 2^(n-1) q is not (0,0); [strat_good P] the strategy tables of P pass a check of their indices. *)

(** * C28: the strategy loops *)
(** The tables of the four sets are good, for both digit sizes. *)
Theorem C28_configurations : forall P,
  In P [P434 T64; P503 T64; P610 T64; P751 T64; P434 T32; P503 T32; P610 T32; P751 T32] -> strat_good P.
Proof. exact strat_configurations. Qed.
Print Assumptions C28_configurations.

(** No index outside pts, pts_index or the table, whatever the field operations, curve and points are. *)
Theorem C28_safe_A : forall O P, strat_good P -> forall c R Q,
  exists r, traverse O _ _ (mulm_A O) (get_4_isog O) (eval_4_isog O) (max_alice P) (max_int_alice P) c R Q (strat_alice P) = Ok r.
Proof. exact safe_A. Qed.
Print Assumptions C28_safe_A.

Theorem C28_safe_B : forall O P, strat_good P -> forall c R Q,
  exists r, traverse O _ _ (mulm_B O) (get_3_isog O) (eval_3_isog O) (max_bob P) (max_int_bob P) c R Q (strat_bob P) = Ok r.
Proof. exact safe_B. Qed.
Print Assumptions C28_safe_B.

(** Isogeny_A returns the codomain and the image of the step-by-step isogeny. *)
Theorem C28_A : forall P (HG : good P), strat_good P -> forall E K Q q r, crng P E -> el P HG (cC E) <> k0 -> full4 (coef P HG E) ->
  repx P HG K q -> orepx P HG Q r -> xord2 (coef P HG E) (e2 P) q ->
  exists E' Q', Isogeny_A (word_ops P) P E K Q = Ok (Some (E', Q')) /\ nons P HG E' /\
    (exists r', quotient2 (e2 P) (coef P HG E) q r (coef P HG E') r' /\ orepx P HG Q' r') /\ (Q' = None <-> Q = None).
Proof. exact chain_A. Qed.
Print Assumptions C28_A.

(** Isogeny_B as well; with [back] it also returns the x-coordinate -1/(3 k) of the kernel of the dual of the last step, whose
    kernel has x-coordinate k, whatever random bytes are read. *)
Theorem C28_B : forall P (HG : good P), strat_good P -> rand_ok P -> forall E K Q q r wb tp o tp', crng P E -> el P HG (cC E) <> k0 ->
  (coef P HG E * coef P HG E <> 4)%F -> repx P HG K q -> orepx P HG Q r -> xord3 (coef P HG E) (e3 P) q ->
  Isogeny_B (word_ops P) P E K Q wb tp = Ok (o, tp') ->
  exists E' Q' b, o = Some (E', Q', b) /\ nons P HG E' /\
    (exists r', chain3 (e3 P) (coef P HG E) q r = Some (coef P HG E', r') /\ orepx P HG Q' r') /\ (Q' = None <-> Q = None) /\
    (if wb then exists b' A1 k1, b = Some b' /\ chain3 (e3 P - 1) (coef P HG E) (tplx (coef P HG E) q) q = Some (A1, XF k1) /\
       coef P HG E' = A3 A1 k1 /\ k1 <> k0 /\ repx P HG b' (XF (- (1) / (3 * k1))%F) else b = None).
Proof. exact chain_B. Qed.
Print Assumptions C28_B.

(** What -1/(3 k) is: the image of every point of order 3 outside the kernel. *)
Theorem C28_dual : forall (F : fld), (kadd k1 k1 : F) <> k0 -> forall A k x : F, ker3 A k -> ker3 A x -> x <> k ->
  (3 <> (0 : F) /\ k <> 0 /\ phi3x k (XF x) = XF (- (1) / (3 * k)))%F.
Proof. exact two_ker3. Qed.
Print Assumptions C28_dual.

(** The maps of XSpec.v are those of points: doubling, tripling, the isogenies. *)
Theorem C28_points : forall P (HG : good P) (A B : GF P HG) M, (A * A <> 4)%F -> B <> k0 -> on A B M ->
  dblx A (xof M) = xof (padd A B M M) /\ tplx A (xof M) = xof (padd A B M (padd A B M M)) /\
  (forall k, phi2x k (xof M) = xof (phi2 k M) /\ phi3x k (xof M) = xof (phi3 k M) /\ phi4x k (xof M) = xof (phi4 k M)).
Proof. exact x_points. Qed.
Print Assumptions C28_points.

(** * C42: success exactly for kernel points of exact order *)
Theorem C42_A : forall P (HG : good P), strat_good P -> forall E K Q B (M : point (GF P HG)), crng P E -> el P HG (cC E) <> k0 ->
  full4 (coef P HG E) -> B <> k0 -> on (coef P HG E) B M -> psrng P K -> repr P HG K M -> opsrng P HG Q ->
  (has_order (coef P HG E) B M (2 ^ e2 P) -> exists o, Isogeny_A (word_ops P) P E K Q = Ok (Some o)) /\
  (~ has_order (coef P HG E) B M (2 ^ e2 P) -> Isogeny_A (word_ops P) P E K Q = Ok None).
Proof. exact accepts_A. Qed.
Print Assumptions C42_A.

Theorem C42_B : forall P (HG : good P), strat_good P -> forall E K Q B (M : point (GF P HG)) tp, rand_ok P -> crng P E -> el P HG (cC E) <> k0 ->
  (coef P HG E * coef P HG E <> 4)%F -> B <> k0 -> on (coef P HG E) B M -> psrng P K -> repr P HG K M -> opsrng P HG Q ->
  (has_order (coef P HG E) B M (3 ^ e3 P) -> (exists o, Isogeny_B (word_ops P) P E K Q false tp = Ok (Some o, tp)) /\
     forall tp', Isogeny_B (word_ops P) P E K Q true tp <> Ok (None, tp')) /\
  (~ has_order (coef P HG E) B M (3 ^ e3 P) -> forall wb, Isogeny_B (word_ops P) P E K Q wb tp = Ok (None, tp)).
Proof. exact accepts_B. Qed.
Print Assumptions C42_B.

(** Every pair (X : Z) other than (0 : 0) is such a point M, for some B; (0 : 0) is refused. *)
Theorem C42_all_pairs : forall P (HG : good P) A (K : pt (word_ops P)), psrng P K -> ~ (el P HG (pX K) = k0 /\ el P HG (pZ K) = k0) ->
  exists B M, B <> k0 /\ on A B M /\ repr P HG K M.
Proof. exact every_pair. Qed.
Print Assumptions C42_all_pairs.

Theorem C42_zero : forall P (HG : good P), forall E K Q wb tp, crng P E -> el P HG (cC E) <> k0 -> full4 (coef P HG E) ->
  psrng P K -> el P HG (pX K) = k0 -> el P HG (pZ K) = k0 -> opsrng P HG Q ->
  Isogeny_A (word_ops P) P E K Q = Ok None /\ (rand_ok P -> Isogeny_B (word_ops P) P E K Q wb tp = Ok (None, tp)).
Proof. exact refuses_00. Qed.
Print Assumptions C42_zero.

(** The same on x-coordinates: exact order of a point and of its x-coordinate. *)
Theorem C42_order : forall P (HG : good P) (A B : GF P HG) n M, (A * A <> 4)%F -> B <> k0 -> on A B M ->
  (xord2 A n (xof M) <-> has_order A B M (2 ^ n)) /\ (xord3 A n (xof M) <-> has_order A B M (3 ^ n)).
Proof. exact x_order. Qed.
Print Assumptions C42_order.

(** p = 2^17 3^4 - 1 over the integer operations that simulate the digit arrays (ZOps.v), on the curve A = 6.  The step-by-step
    chain on projective coordinates: *)
Fixpoint naive4 (n : nat) (c : T OZ * T OZ) (R Q : pt OZ) : (T OZ * T OZ) * pt OZ :=
  match n with
  | O => (c, Q)
  | S n => let '(c', co) := get_4_isog OZ (mulm_A OZ c n R) in naive4 n c' (eval_4_isog OZ co R) (eval_4_isog OZ co Q)
  end.
Fixpoint naive3 (n : nat) (c : T OZ * T OZ) (R Q : pt OZ) : (T OZ * T OZ) * pt OZ :=
  match n with
  | O => (c, Q)
  | S n => let '(c', co) := get_3_isog OZ (mulm_B OZ c n R) in naive3 n c' (eval_3_isog OZ co R) (eval_3_isog OZ co Q)
  end.
Definition six : curve OZ := @mkCurve OZ (6, 0) (1, 0).
Definition affine (Q : pt OZ) : T OZ := fp2div OZ (pX Q) (pZ Q).
Definition kp (x : T OZ) : pt OZ := @mkPt OZ x (1, 0).
(** Kernel generators of orders 2^17 and 3^4 (the second of order 2^17 lies above (0,0)). *)
Definition kA := kp (2254732, 4330333). Definition kB := kp (178729, 4079861). Definition kC := kp (7705489, 8660936).
Definition show_A (o : out (option (curve OZ * option (pt OZ)))) : option (option (T OZ * T OZ)) :=
  match o with Ok (Some (E, Some Q)) => Some (Some (fp2div OZ (cA E) (cC E), affine Q)) | Ok None => Some None | _ => None end.
Definition show_B (o : out (option (curve OZ * option (pt OZ) * option (pt OZ)) * tape)) : option (option (T OZ * T OZ * T OZ)) :=
  match o with
  | Ok (Some (E, Some Q, Some b), _) => Some (Some (fp2div OZ (cA E) (cC E), affine Q, affine b))
  | Ok (None, _) => Some None
  | _ => None
  end.
Definition naive_A : T OZ * T OZ :=
  let '(ap, _, c) := AC_to_AAC24 OZ six in
  let S := xDBLe OZ kA ap c 16 in
  let '((a, c), Q) := naive4 8 (get_2_isog OZ S) (eval_2_isog OZ kA S) (eval_2_isog OZ kB S) in
  let E := AC24_to_AC OZ a c in (fp2div OZ (cA E) (cC E), affine Q).
Definition naive_B : T OZ * T OZ :=
  let '(ap, am, _) := AC_to_AAC24 OZ six in
  let '((a, c), Q) := naive3 4 (am, ap) kB kA in
  let E := AA24_to_AC OZ a c in (fp2div OZ (cA E) (cC E), affine Q).
Example C28_example :
  show_A (Isogeny_A OZ Ptoy2 six kA (Some kB)) = Some (Some (4734756, 3600977, (8565147, 2372854))) /\ naive_A = (4734756, 3600977, (8565147, 2372854)) /\
  show_B (Isogeny_B OZ Ptoy2 six kB (Some kA) true tp_toy) = Some (Some (4954026, 6280064, (9587411, 4912052), (4562857, 2872968))) /\
  show_B (Isogeny_B OZ Ptoy2 six kB (Some kA) true (tps_toy 1)) = Some (Some (4954026, 6280064, (9587411, 4912052), (4562857, 2872968))) /\
  naive_B = (4954026, 6280064, (9587411, 4912052)).
Proof. vm_compute. repeat split. Qed.
Example C28_toy : strat_good Ptoy2. Proof. unfold strat_good. repeat split; vm_compute; try reflexivity; lia. Qed.
(** Kernel points of exact order, above (0,0) or not; of another order; the pair (0 : 0). *)
Example C42_example :
  let ok o := match show_A o with Some (Some _) => 1 | Some None => 0 | None => 2 end in
  let okB o := match show_B o with Some (Some _) => 1 | Some None => 0 | None => 2 end in
  ok (Isogeny_A OZ Ptoy2 six kC (Some kB)) = 1 /\ is0 OZ (pX (let '(ap, _, c) := AC_to_AAC24 OZ six in xDBLe OZ kC ap c 16)) = true /\
  ok (Isogeny_A OZ Ptoy2 six kB (Some kB)) = 0 /\ ok (Isogeny_A OZ Ptoy2 six (let '(ap, _, c) := AC_to_AAC24 OZ six in xDBL OZ kA ap c) (Some kB)) = 0 /\
  ok (Isogeny_A OZ Ptoy2 six junkz (Some kB)) = 0 /\
  okB (Isogeny_B OZ Ptoy2 six kA (Some kB) true tp_toy) = 0 /\ okB (Isogeny_B OZ Ptoy2 six kB (Some kA) true tp_toy) = 1 /\
  okB (Isogeny_B OZ Ptoy2 six kB (Some kA) true [1; 2]) = 2.
Proof. vm_compute. repeat split. Qed.
