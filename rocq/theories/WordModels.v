(** The curve models of digit arrays: theorems C29-C31 transferred to words. *)
From Coq Require Import Znumtheory Field.
From Verif Require Import Base BaseP Digits DigitsP Out Params Fp Wf FpP Fld FpRep FpMisc FpMiscP PrimeInst FpInst Ops Ec Models Sim ModelsSim
  WordOps FieldOps WordSim CurveSpec ModelSpec IsogSpec FldCurve SqrtP FldModels GroupP MultP FldIsog LadderP IsoP Proto ProtoSim WordCurve.
Set Bullet Behavior "Strict Subproofs".

Section Gen.
Variable F : fld.
Hypothesis two : (kadd k1 k1 : F) <> k0.
Local Open Scope fld_scope.
Definition kth_m := kth F.
Add Field KFm : kth_m.
Lemma jinv_scale (A C : F) : C <> 0 -> (A / C) * (A / C) <> 4 -> A * A <> 4 * (C * C) /\ jinv A C = jinv (A / C) 1.
Proof.
  intros N H.
  assert (N1 : A * A <> 4 * (C * C)).
  { intros E. apply H. transitivity (A * A / (C * C)); [field; auto|]. rewrite E. field. auto. }
  split; auto. apply (sub_nz F) in H, N1. pose proof (one_nz F). unfold jinv.
  assert (H2 : A / C * (A / C) - 4 * (1 * 1) = (A * A - 4 * (C * C)) / (C * C)) by (field; auto). rewrite H2.
  set (d := A * A - 4 * (C * C)) in *. assert (E : A * A = d + 4 * (C * C)) by (unfold d; ring).
  assert (H3 : A / C * (A / C) - 3 * (1 * 1) = (A * A - 3 * (C * C)) / (C * C)) by (field; auto). rewrite H3.
  clearbody d. set (q := A * A - 3 * (C * C)). clearbody q. field. auto.
Qed.
Variables (unit : F) (sqrt : F -> F) (lt : F -> F -> bool) (enc : F -> list Z) (dec : list Z -> F) (rnd : tape -> out (F * tape)).
Local Notation O := (fld_ops F unit sqrt lt enc dec rnd).
Lemma eval_iso_xz (A A' r u X Z : F) (M : point F) : iso_to A A' r u -> xz X Z M ->
  let Q := eval_iso O (@mkIso O A' r u) (@mkPt O X Z) in xz (pX Q) (pZ Q) (iso_pt F r u M).
Proof.
  intros (Nu & _) H. destruct M as [|x y]; cbn [xz iso_pt eval_iso fld_ops o_mul o_sub pX pZ iB ir iu2] in *.
  - destruct H as [H ->]. split; [|ring]. intros E. apply H. rewrite <- E. ring.
  - destruct H as [H ->]. split; [now apply (mul_nz F)|]. field. auto.
Qed.
(** Any coefficient whatsoever: a list of six, or the count of the C code runs over. *)
Lemma all_models_six (E : curve O) : (exists l, all_models O E = Ok l /\ length l = 6%nat) \/ all_models O E = UB.
Proof.
  unfold all_models. destruct (solve_quadratic O _) as [[x0 x1] [|]]; auto.
  unfold two_models. destruct (solve_quadratic O _) as [[y0 y1] [|]]; auto. cbn [bind].
  destruct (solve_quadratic O _) as [[z0 z1] [|]]; auto. cbn [bind]. left. eexists. split; [reflexivity|]. reflexivity.
Qed.
End Gen.

Section WM.
Variable P : params.
Hypothesis HG : good P.
Local Notation HW := (FpInst.HW P HG). Local Notation Hp := (FpInst.Hp P HG).
Local Notation GF := (GF P HG). Local Notation el := (el P HG). Local Notation rng := (rng P). Local Notation srng := (srng P).
Local Notation pel := (pel P HG). Local Notation cel := (cel P HG). Local Notation iel := (iel P HG). Local Notation irng := (irng P).
Local Notation crng := (crng P). Local Notation prng := (prng P). Local Notation coef := (coef P HG). Local Notation repr := (repr P HG).
Local Notation OW := (word_ops P). Local Notation OF := (field_ops P HW Hp).
Local Notation enc := (qenc P HW Hp).
Local Notation FO := (fld_ops GF (toF P (vunit P), f0) (qsqrt P HW Hp) (qlt P HW Hp) (qenc P HW Hp) (dec_val P HW Hp) (qrand P HW Hp)).

Lemma enc_j_bytes E : nons P HG E -> enc_j OW E = enc (jinv (coef E) k1).
Proof.
  intros (H1 & H2 & H3). rewrite (enc_j_word P HG E H1).
  destruct (jinv_scale GF (el (cA E)) (el (cC E)) H2 H3) as [H4 H5].
  unfold WordCurve.coef. rewrite <- H5.
  change (enc (j_inv FO (el (cA E)) (el (cC E))) = enc (jinv (el (cA E)) (el (cC E)))).
  now rewrite j_inv_ok.
Qed.
Lemma enc_j_same E E' : nons P HG E -> nons P HG E' -> isomorphic (coef E) (coef E') -> enc_j OW E = enc_j OW E'.
Proof.
  intros H H' (r & u & I). rewrite (enc_j_bytes E H), (enc_j_bytes E' H'). f_equal.
  apply (iso_j GF) with r u; auto; [apply H|apply H'].
Qed.
Lemma enc_j_iso E E' : nons P HG E -> nons P HG E' -> full4 (coef E) -> enc_j OW E = enc_j OW E' -> isomorphic (coef E) (coef E').
Proof.
  intros H H' H4 Ej. rewrite (enc_j_bytes E H), (enc_j_bytes E' H') in Ej. apply enc_inj in Ej.
  apply j_isomorphic; auto; [apply two_nz|apply H'].
Qed.

Lemma all_models_group E : crng E -> el (cC E) <> k0 -> full4 (coef E) ->
  exists l, all_models OW E = Ok l /\ length l = 6%nat /\ Forall irng l /\
    Forall (fun i : miso OW => iso_to (coef E) (el (iB i)) (el (ir i)) (el (iu2 i))) l /\
    forall B, isomorphic (coef E) B -> In B (map (fun i : miso OW => el (iB i)) l).
Proof.
  intros H HC H4.
  destruct (all_models_ok GF (toF P (vunit P), f0) (qsqrt P HW Hp) (qlt P HW Hp) (qenc P HW Hp) (dec_val P HW Hp) (qrand P HW Hp)
    (two_nz P HG) (sqrt_GF P HG) (cel E) HC H4) as (m & E1 & E2 & E3 & E4 & _).
  pose proof (all_models_word P HG E H) as HH. change (all_models OF) with (all_models FO) in HH. rewrite E1 in HH.
  inversion HH as [l m' [H1 H2] E5 E6| | | |]. subst m'. exists l. split; auto. rewrite <- H2 in *.
  split; [rewrite map_length in E2; exact E2|]. split; auto. split.
  - rewrite Forall_map in E3. exact E3.
  - intros B HB. apply E4 in HB. rewrite map_map in HB. exact HB.
Qed.
Lemma all_models_any E : crng E -> (exists l, all_models OW E = Ok l /\ length l = 6%nat) \/ all_models OW E = UB.
Proof.
  intros H. pose proof (all_models_word P HG E H) as HH.
  destruct (all_models_six GF (toF P (vunit P), f0) (qsqrt P HW Hp) (qlt P HW Hp) (qenc P HW Hp) (dec_val P HW Hp) (qrand P HW Hp) (cel E)) as [(l & E1 & E2)|E1];
    change (all_models FO) with (all_models OF) in E1; rewrite E1 in HH.
  - left. inversion HH as [l' m' [H1 H2] E5 E6| | | |]. exists l'. split; auto. subst. now rewrite map_length in E2.
  - right. now inversion HH.
Qed.
Lemma all_models_singular E : crng E -> kmul (coef E) (coef E) = (4%F : GF) -> all_models OW E = UB.
Proof.
  intros H HC. pose proof (all_models_word P HG E H) as HH.
  assert (E1 : all_models FO (cel E) = UB).
  { unfold all_models. rewrite fp2div_field.
    destruct (solve_quadratic_same GF (toF P (vunit P), f0) (qsqrt P HW Hp) (qlt P HW Hp) (qenc P HW Hp) (dec_val P HW Hp) (qrand P HW Hp)
      (two_nz P HG) (sqrt_GF P HG) (coef E) HC) as (s0 & s1 & E1).
    change (kdiv (cA (cel E)) (cC (cel E)) : GF) with (coef E). rewrite E1. reflexivity. }
  change (all_models FO) with (all_models OF) in E1. rewrite E1 in HH. now inversion HH.
Qed.
(** The least coefficient of the isomorphism class. *)
Definition least (A B : GF) : Prop := isomorphic A B /\ forall B', isomorphic A B' -> qlt P HW Hp B' B = false.
Lemma canonical_group E : crng E -> el (cC E) <> k0 -> full4 (coef E) ->
  exists i, canonical_model OW E = Ok i /\ irng i /\ iso_to (coef E) (el (iB i)) (el (ir i)) (el (iu2 i)) /\ least (coef E) (el (iB i)).
Proof.
  intros H HC H4.
  destruct (canonical_model_ok GF (toF P (vunit P), f0) (qsqrt P HW Hp) (qlt P HW Hp) (qenc P HW Hp) (dec_val P HW Hp) (qrand P HW Hp)
    (two_nz P HG) (sqrt_GF P HG) (lt_GF_irr P HG) (lt_GF_trans P HG) (lt_GF_total P HG) (cel E) HC H4) as (m & E1 & E2 & E3).
  pose proof (canonical_word P HG E H) as HH. change (canonical_model OF) with (canonical_model FO) in HH. rewrite E1 in HH.
  inversion HH as [i m' [H1 H2] E5 E6| | | |]. subst m'. exists i. rewrite <- H2 in *. auto.
Qed.
Lemma least_uniq A B B' : least A B -> least A B' -> B = B'.
Proof. apply (least_unique GF). apply lt_GF_total. Qed.
Lemma least_iso A A' B : isomorphic A A' -> least A B -> least A' B.
Proof. apply (FldModels.least_iso GF). Qed.

Lemma pack_curve_group E : crng E -> el (cC E) <> k0 -> full4 (coef E) ->
  exists B, least (coef E) B /\ pack_curve OW E = Ok (enc B).
Proof.
  intros H HC H4. destruct (canonical_group E H HC H4) as (i & E1 & H1 & H2 & H3).
  exists (el (iB i)). split; auto. unfold pack_curve. rewrite E1. cbn [bind]. f_equal.
  apply (s_enc _ _ (S0 P HG)). apply el_rel, H1.
Qed.
Lemma pack_curve_same E E' : crng E -> el (cC E) <> k0 -> crng E' -> el (cC E') <> k0 -> full4 (coef E) ->
  isomorphic (coef E) (coef E') -> pack_curve OW E = pack_curve OW E'.
Proof.
  intros H HC H' HC' H4 HI. destruct (pack_curve_group E H HC H4) as (B & L & ->).
  destruct (pack_curve_group E' H' HC') as (B' & L' & ->). { apply isomorphic_full4 with (coef E); auto. }
  do 2 f_equal. apply least_uniq with (coef E'); auto. now apply least_iso with (coef E).
Qed.
Lemma unpack_word b : elem_ok P b -> crng (unpack_curve OW b) /\ el (cC (unpack_curve OW b)) = k1 /\
  coef (unpack_curve OW b) = dec_val P HW Hp b.
Proof.
  intros Hb. pose proof (s_dec _ _ (S0 P HG) b Hb) as H1. apply srel_el in H1 as [H1 E1].
  pose proof (s_one _ _ (S0 P HG)) as H2. apply srel_el in H2 as [H2 E2].
  assert (E2' : el (cC (unpack_curve OW b)) = k1) by (exact E2).
  split; [split; apply srng_rng; assumption|]. split; auto.
  unfold WordCurve.coef. rewrite E2'. change (el (cA (unpack_curve OW b))) with (el (o_dec OW b)). rewrite E1.
  change (kdiv (dec_val P HW Hp b : GF) k1 = dec_val P HW Hp b).
  set (x := dec_val P HW Hp b : GF). clearbody x. pose proof (kth GF) as th.
  rewrite (Field_theory.Fdiv_def th). transitivity (kmul x (kmul (kinv k1) (k1 : GF))).
  - pose proof (Field_theory.F_R th) as R. f_equal. rewrite (Ring_theory.Rmul_comm R). symmetry. apply (Ring_theory.Rmul_1_l R).
  - rewrite (Field_theory.Finv_l th); [|apply (Field_theory.F_1_neq_0 th)].
    pose proof (Field_theory.F_R th) as R. rewrite (Ring_theory.Rmul_comm R). apply (Ring_theory.Rmul_1_l R).
Qed.
Lemma pack_idem E b : crng E -> el (cC E) <> k0 -> full4 (coef E) -> pack_curve OW E = Ok b ->
  elem_ok P b /\ isomorphic (coef E) (coef (unpack_curve OW b)) /\ pack_curve OW (unpack_curve OW b) = Ok b.
Proof.
  intros H HC H4 Eb. destruct (pack_curve_group E H HC H4) as (B & L & EB). rewrite EB in Eb. injection Eb as <-.
  pose proof (enc_elem_ok P HG B) as Hk.
  destruct (unpack_word _ Hk) as (U1 & U2 & U3). rewrite dec_enc in U3.
  split; auto. rewrite U3. split; [apply L|]. rewrite <- EB. symmetry.
  apply pack_curve_same; auto; [rewrite U2; apply (Field_theory.F_1_neq_0 (kth GF))|]. rewrite U3. apply L.
Qed.
Lemma eval_iso_group i A Q M : irng i -> iso_to A (el (iB i)) (el (ir i)) (el (iu2 i)) -> repr Q M ->
  repr (eval_iso OW i Q) (iso_pt GF (el (ir i)) (el (iu2 i)) M).
Proof.
  intros Hi HI HQ. destruct (eval_iso_word P HG i Q Hi (proj1 HQ)) as [H1 H2]. split; auto.
  pose proof (eval_iso_xz GF (toF P (vunit P), f0) (qsqrt P HW Hp) (qlt P HW Hp) (qenc P HW Hp) (dec_val P HW Hp) (qrand P HW Hp)
     A _ _ _ (el (pX Q)) (el (pZ Q)) M HI (proj2 HQ)) as HX. cbv zeta in HX.
  change (xz (pX (pel (eval_iso OW i Q)) : GF) (pZ (pel (eval_iso OW i Q))) (iso_pt GF (el (ir i)) (el (iu2 i)) M)).
  rewrite H2. exact HX.
Qed.
End WM.
