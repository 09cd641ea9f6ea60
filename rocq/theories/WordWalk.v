(** Unpack_Chain_A, Unpack_Chain_B, Unpack_Response and Verify on digit arrays. *)
From Coq Require Import Znumtheory Field.
From Verif Require Import Base BaseP Digits DigitsP Out Params Fp Wf FpP Poik Hashing HashSpec HashingP Codec CodecSpec Fld FpRep FpMisc FpMiscP PrimeInst FpInst Ops Ec Models Proto Sim ModelsSim ProtoSim
  WordOps FieldOps WordSim CurveSpec ModelSpec IsogSpec XSpec OrderSpec ProtoSpec WalkSpec FldCurve GroupP MultP OrderP CheckP FldIsog IsoP FldModels WordCurve WordModels WordCheck VerifyP XLine XIso Strategy XChain XIsog WordIsog
  WalkP ChainP OpenP ToyRun.
Set Bullet Behavior "Strict Subproofs".

(** The choices of the code: the least model of a curve and an isomorphism to it, a model in which the point (0, 0) lies elsewhere;
    reading and writing of field elements. *)
Notation canonicalP P HG := (canon_model (GF P HG) (toF P (vunit P), f0) (qsqrt P (FpInst.HW P HG) (FpInst.Hp P HG)) (qlt P (FpInst.HW P HG) (FpInst.Hp P HG)) (qenc P (FpInst.HW P HG) (FpInst.Hp P HG)) (dec_val P (FpInst.HW P HG) (FpInst.Hp P HG)) (qrand P (FpInst.HW P HG) (FpInst.Hp P HG))).
Notation movedP P HG := (other_model (GF P HG) (toF P (vunit P), f0) (qsqrt P (FpInst.HW P HG) (FpInst.Hp P HG)) (qlt P (FpInst.HW P HG) (FpInst.Hp P HG)) (qenc P (FpInst.HW P HG) (FpInst.Hp P HG)) (dec_val P (FpInst.HW P HG) (FpInst.Hp P HG)) (qrand P (FpInst.HW P HG) (FpInst.Hp P HG))).
Notation valueP P HG := (dec_val P (FpInst.HW P HG) (FpInst.Hp P HG) : list Z -> GF P HG).
Notation encodeP P HG := (qenc P (FpInst.HW P HG) (FpInst.Hp P HG) : GF P HG -> list Z).

Section WW.
Variable K : pok.
Notation P := (fpar K).
Variable HG : good P.
Hypothesis HR : rand_ok P.
Hypothesis HS : strat_good P.
Local Notation HW := (FpInst.HW P HG). Local Notation Hp := (FpInst.Hp P HG).
Local Notation GF := (GF P HG). Local Notation el := (el P HG). Local Notation coef := (coef P HG).
Local Notation crng := (crng P). Local Notation nons := (nons P HG).
Notation OW := (word_ops P). Notation OF := (field_ops P HW Hp).
Local Notation FO := (fld_ops GF (toF P (vunit P), f0) (qsqrt P HW Hp) (qlt P HW Hp) (qenc P HW Hp) (dec_val P HW Hp) (qrand P HW Hp)).
Local Notation "'ARGS' f" := (f GF (toF P (vunit P), f0) (qsqrt P HW Hp) (qlt P HW Hp) (qenc P HW Hp) (dec_val P HW Hp) (qrand P HW Hp)) (at level 10, only parsing).
Local Notation canonical := (canonicalP P HG). Local Notation moved := (movedP P HG).
Local Notation value := (valueP P HG). Local Notation encode := (encodeP P HG).
Lemma canonical_ok (A : GF) : full4 A -> iso_to A (fst (fst (canonical A))) (snd (fst (canonical A))) (snd (canonical A)) /\ least P HG A (fst (fst (canonical A))).
Proof.
  intros H4. destruct (canon_ok GF (toF P (vunit P), f0) (qsqrt P HW Hp) (qlt P HW Hp) (qenc P HW Hp) (dec_val P HW Hp) (qrand P HW Hp)
    (two_nz P HG) (sqrt_GF P HG) (lt_GF_irr P HG) (lt_GF_trans P HG) (lt_GF_total P HG) A H4) as (m & _ & E & HI & HL).
  rewrite E. split; [exact HI|exact HL].
Qed.
Lemma moved_ok (A : GF) : full4 A -> iso_to A (fst (fst (moved A))) (snd (fst (moved A))) (snd (moved A)) /\ snd (fst (moved A)) <> k0.
Proof.
  intros H4. pose proof (other_ok GF (toF P (vunit P), f0) (qsqrt P HW Hp) (qlt P HW Hp) (qenc P HW Hp) (dec_val P HW Hp) (qrand P HW Hp)
    (two_nz P HG) (sqrt_GF P HG) A H4) as HO.
  destruct (other_model GF _ _ _ _ _ _ A) as [[B r] u]. exact HO.
Qed.
Variable SS : GF -> Prop.
Hypothesis HSS : isog_class SS.
Lemma elem_bytes a : elem_ok P a -> bytes_ok (word_sim P HW Hp) a. Proof. intros [L D]. split; auto. Qed.
Lemma nons_of (E : curve OW) (E' : curve OF) (A' : GF) : crel OW OF (S0 P HG) E E' -> SS A' -> cC E' <> (k0 : GF) -> (cA E' = kmul A' (cC E')) -> nons E /\ coef E = A'.
Proof.
  intros HE HA HC HcA. apply crel_cel in HE as [H1 <-]. assert (EC : coef E = A') by (apply coef_div; auto). split; auto.
  split; [exact H1|]. split; [exact HC|]. rewrite EC. exact (ss_ns GF SS HSS A' HA).
Qed.
Lemma chain_A_word junk a xs tp o tp' : elem_ok P a -> Forall (elem_ok P) xs -> SS (value a) -> Unpack_Chain_A K OW junk a xs tp = Ok (o, tp') ->
  match o with
  | Some E => nons E /\ SS (coef E) /\ walk2 canonical moved (e2 P) (value a) None (map (fun x => XF (value x : GF)) xs) (coef E)
  | None => forall A', ~ walk2 canonical moved (e2 P) (value a) None (map (fun x => XF (value x : GF)) xs) A'
  end.
Proof.
  intros Ha Hxs HA H.
  assert (Hx : Forall (bytes_ok (word_sim P HW Hp)) xs) by (eapply Forall_impl; [|exact Hxs]; exact elem_bytes).
  pose proof (Unpack_Chain_A_sim K _ _ (word_sim P HW Hp) (word_rand P HW Hp HR) junk (@mkPt OF (k0 : GF) (k0 : GF)) a xs tp (elem_bytes _ Ha) Hx) as Sim.
  rewrite H in Sim. inversion Sim as [x y HI E1 E2| | | |]. subst x. destruct y as [o' t']. destruct HI as [HI _]. symmetry in E2. cbn [fst] in HI. clear Sim.
  pose proof (Unpack_Chain_A_ok GF (toF P (vunit P), f0) (qsqrt P HW Hp) (qlt P HW Hp) (qenc P HW Hp) (dec_val P HW Hp) (qrand P HW Hp)
    (two_nz P HG) (sqrt_GF P HG) (lt_GF_irr P HG) (lt_GF_trans P HG) (lt_GF_total P HG) SS HSS K HS _ a xs tp o' t' HA E2) as HU.
  destruct o as [E|], o' as [E'|]; cbn in HI; try contradiction; [|exact HU].
  destruct HU as (A' & HWk & HA' & HC & HcA). destruct (nons_of E E' A' HI HA' HC HcA) as [H1 <-]. auto.
Qed.
Lemma chain_B_word junk a xs tp o tp' : elem_ok P a -> Forall (elem_ok P) xs -> SS (value a) -> Unpack_Chain_B K OW junk a xs tp = Ok (o, tp') ->
  match o with
  | Some E => nons E /\ SS (coef E) /\ walk3 canonical (e3 P) (value a) None (map (fun x => XF (value x : GF)) xs) (coef E)
  | None => forall A', ~ walk3 canonical (e3 P) (value a) None (map (fun x => XF (value x : GF)) xs) A'
  end.
Proof.
  intros Ha Hxs HA H.
  assert (Hx : Forall (bytes_ok (word_sim P HW Hp)) xs) by (eapply Forall_impl; [|exact Hxs]; exact elem_bytes).
  pose proof (Unpack_Chain_B_sim K _ _ (word_sim P HW Hp) (word_rand P HW Hp HR) junk (@mkPt OF (k0 : GF) (k0 : GF)) a xs tp (elem_bytes _ Ha) Hx) as Sim.
  rewrite H in Sim. inversion Sim as [x y HI E1 E2| | | |]. subst x. destruct y as [o' t']. destruct HI as [HI _]. symmetry in E2. cbn [fst] in HI. clear Sim.
  pose proof (Unpack_Chain_B_ok GF (toF P (vunit P), f0) (qsqrt P HW Hp) (qlt P HW Hp) (qenc P HW Hp) (dec_val P HW Hp) (qrand P HW Hp)
    (two_nz P HG) (sqrt_GF P HG) (lt_GF_irr P HG) (lt_GF_trans P HG) (lt_GF_total P HG) SS HSS K HS _ a xs tp o' t' HA E2) as HU.
  destruct o as [E|], o' as [E'|]; cbn in HI; try contradiction; [|exact HU].
  destruct HU as (A' & HWk & HA' & HC & HcA). destruct (nons_of E E' A' HI HA' HC HcA) as [H1 <-]. auto.
Qed.
Lemma walk2_cyclic A d q qs A' s : SS A -> walk2 canonical moved (e2 P) A d (q :: qs) A' -> dblx A s = XInf -> s <> XInf ->
  s <> Nat.iter (e2 P - 1) (dblx A) q -> comp2 canonical moved (e2 P) A (q :: qs) s = Some (A', XF k0).
Proof.
  intros HA H Hs Ns Nq. pose proof (cyclic2 GF (toF P (vunit P), f0) (qsqrt P HW Hp) (qlt P HW Hp) (qenc P HW Hp) (dec_val P HW Hp) (qrand P HW Hp)
    (two_nz P HG) (sqrt_GF P HG) (lt_GF_irr P HG) (lt_GF_trans P HG) (lt_GF_total P HG) SS HSS K HS A d (q :: qs) A' H HA q qs s eq_refl) as X.
  pose proof (X Hs Ns) as Y. pose proof (Y Nq) as Z. exact Z.
Qed.
Lemma walk3_cyclic A d q qs A' s : SS A -> walk3 canonical (e3 P) A d (q :: qs) A' -> tplx A s = XInf -> s <> XInf ->
  s <> Nat.iter (e3 P - 1) (tplx A) q -> exists s', comp3 canonical (e3 P) A (q :: qs) s = Some (A', s') /\ s' <> XInf.
Proof.
  intros HA H Hs Ns Nq. exact (cyclic3 GF (toF P (vunit P), f0) (qsqrt P HW Hp) (qlt P HW Hp) (qenc P HW Hp) (dec_val P HW Hp) (qrand P HW Hp)
    (two_nz P HG) (sqrt_GF P HG) (lt_GF_irr P HG) (lt_GF_trans P HG) (lt_GF_total P HG) (enc_inj P HG) SS HSS K HS A d (q :: qs) A' H HA q qs s eq_refl Hs Ns Nq).
Qed.
(** ** Verify *)
Hypothesis small : exps32 P.
Hypothesis cert : forall A : GF, kmul A A <> 4%F -> certified P A -> SS A.
Notation opens := (@WalkSpec.opens GF canonical moved encode value K).
Lemma check_word junk a tp : elem_ok P a -> check_packed K OW junk a tp = check_packed K OF (@mkPt OF (k0 : GF) (k0 : GF)) a tp.
Proof.
  intros Ha. pose proof (check_packed_sim K _ _ (word_sim P HW Hp) (word_rand P HW Hp HR) junk (@mkPt OF (k0 : GF) (k0 : GF)) a tp (elem_bytes _ Ha)) as H.
  destruct H as [x y [H1 H2]| | | |]; auto. f_equal. destruct x, y; cbn in *; congruence.
Qed.
Lemma accept_coef j (x : GF) tp tp' : Check_Curve OF P j (@mkCurve OF x (k1 : GF)) tp = Ok (true, tp') -> SS x.
Proof.
  intros H. assert (NS : kmul x x <> 4%F).
  { intros S. revert H. refine (check_singular GF _ _ _ _ _ _ (two_nz P HG) P (shape1 P HG) small x j (@mkCurve OF x (k1 : GF)) tp tp' _ eq_refl eq_refl S).
    pose proof (wf_e3 P HW). lia. }
  apply cert; auto.
  exact (check_sound GF _ _ _ _ _ _ (two_nz P HG) P (shape1 P HG) small x NS j (@mkCurve OF x (k1 : GF)) tp tp' eq_refl eq_refl H).
Qed.
Lemma accept_field a tp tp' : check_packed K OF (@mkPt OF (k0 : GF) (k0 : GF)) a tp = Ok (true, tp') -> SS (value a).
Proof. exact (accept_coef _ (value a) tp tp'). Qed.
Lemma wf_bottom r : wf_response K r -> elem_ok P (bottom_E2 K r).
Proof. intros H. apply (wf_resp_bytes K HG) in H as (_ & _ & [H1 H2] & _). split; auto. Qed.
Lemma opens_pass (f g : list Z -> Prop) A0 A1 r h2 h3 : (forall a, a = bottom_E2 K r -> f a <-> g a) -> opens f A0 A1 r h2 h3 <-> opens g A0 A1 r h2 h3.
Proof.
  intros E. unfold WalkSpec.opens. destruct (int8 (r_tag r)) as [|[| |]|[| |]]; try tauto. specialize (E _ eq_refl). tauto.
Qed.
Lemma opens_imp (f g : list Z -> Prop) A0 A1 r h2 h3 : wf_response K r -> (forall a, elem_ok P a -> f a -> g a) -> opens f A0 A1 r h2 h3 -> opens g A0 A1 r h2 h3.
Proof.
  intros Hr E. apply wf_bottom in Hr. specialize (E _ Hr). unfold WalkSpec.opens. destruct (int8 (r_tag r)) as [|[| |]|[| |]]; try tauto.
Qed.
Theorem Verify_spec junk fuel prf tp tps b : wf_proof K prf -> Verify K OW junk fuel prf tp tps = Ok b ->
  b = true <-> exists t1 t2 hs, check_packed K OW junk (p_E0 prf) tp = Ok (true, t1) /\ check_packed K OW junk (p_E1 prf) t1 = Ok (true, t2) /\
    length hs = length (p_resp prf) /\
    (forall i r, nth_error (p_resp prf) i = Some r -> exists h2 h3, nth_error hs i = Some (h2, h3) /\
       opens (fun a => exists t, check_packed K OW junk a (tps i) = Ok (true, t)) (value (p_E0 prf)) (value (p_E1 prf)) r h2 h3) /\
    Challenge K fuel (mkComm (encode (jinv (value (p_E0 prf)) k1)) (encode (jinv (value (p_E1 prf)) k1)) hs) (repeat 0 (reps K)) =
      Ok (map (fun r => int8 (r_tag r)) (p_resp prf)).
Proof.
  intros Hwf H. rewrite (Verify_word K HG HR junk (@mkPt OF (k0 : GF) (k0 : GF)) fuel prf tp tps Hwf) in H.
  pose proof (Verify_ok GF (toF P (vunit P), f0) (qsqrt P HW Hp) (qlt P HW Hp) (qenc P HW Hp) (dec_val P HW Hp) (qrand P HW Hp)
    (two_nz P HG) (sqrt_GF P HG) (lt_GF_irr P HG) (lt_GF_trans P HG) (lt_GF_total P HG) (enc_inj P HG) SS HSS K HS (@mkPt OF (k0 : GF) (k0 : GF)) accept_field fuel prf tp tps b H) as HV.
  destruct Hwf as ([L0 D0] & [L1 D1] & _ & Hr). rewrite Forall_forall in Hr.
  assert (H0 : elem_ok P (p_E0 prf)) by (split; auto). assert (H1 : elem_ok P (p_E1 prf)) by (split; auto).
  assert (HP : forall i r h2 h3, nth_error (p_resp prf) i = Some r ->
    opens (fun a => exists t, check_packed K OW junk a (tps i) = Ok (true, t)) (value (p_E0 prf)) (value (p_E1 prf)) r h2 h3 <->
    opens (fun a => exists t, check_packed K OF (@mkPt OF (k0 : GF) (k0 : GF)) a (tps i) = Ok (true, t)) (value (p_E0 prf)) (value (p_E1 prf)) r h2 h3).
  { intros i r h2 h3 Hi. apply opens_pass. intros a ->. rewrite check_word by (apply wf_bottom, Hr; eapply nth_error_In; eauto). reflexivity. }
  rewrite HV. clear HV. split; intros (t1 & t2 & hs & C0 & C1 & L & G & C); exists t1, t2, hs.
  - rewrite (check_word junk _ _ H0), (check_word junk _ _ H1). split; [exact C0|]. split; [exact C1|]. split; [exact L|]. split; [|exact C].
    intros i r Hi. destruct (G i r Hi) as (h2 & h3 & E & Ho). exists h2, h3. split; [exact E|]. exact (proj2 (HP i r h2 h3 Hi) Ho).
  - rewrite (check_word junk _ _ H0) in C0. rewrite (check_word junk _ _ H1) in C1. split; [exact C0|]. split; [exact C1|]. split; [exact L|]. split; [|exact C].
    intros i r Hi. destruct (G i r Hi) as (h2 & h3 & E & Ho). exists h2, h3. split; [exact E|]. exact (proj1 (HP i r h2 h3 Hi) Ho).
Qed.
Lemma response_spec junk prf r tp o tp' : elem_ok P (p_E0 prf) -> elem_ok P (p_E1 prf) -> wf_response K r -> SS (value (p_E0 prf)) -> SS (value (p_E1 prf)) ->
  Unpack_Response K OW junk prf r tp = Ok (o, tp') ->
  forall h2 h3, o = Some (h2, h3) <->
    opens (fun a => exists t, check_packed K OW junk a tp = Ok (true, t)) (value (p_E0 prf)) (value (p_E1 prf)) r h2 h3.
Proof.
  intros H0 H1 Hr S0 S1 H h2 h3.
  rewrite (Unpack_Response_sim K _ _ (word_sim P HW Hp) (word_rand P HW Hp HR) junk (@mkPt OF (k0 : GF) (k0 : GF)) prf r tp (elem_bytes _ H0) (elem_bytes _ H1) (wf_resp_bytes K HG r Hr)) in H.
  pose proof (Unpack_Response_ok GF (toF P (vunit P), f0) (qsqrt P HW Hp) (qlt P HW Hp) (qenc P HW Hp) (dec_val P HW Hp) (qrand P HW Hp)
    (two_nz P HG) (sqrt_GF P HG) (lt_GF_irr P HG) (lt_GF_trans P HG) (lt_GF_total P HG) (enc_inj P HG) SS HSS K HS (@mkPt OF (k0 : GF) (k0 : GF)) accept_field prf r tp o tp' S0 S1 H h2 h3) as HU.
  rewrite HU. clear HU. symmetry. apply opens_pass. intros a ->. rewrite check_word by (apply wf_bottom; auto). reflexivity.
Qed.
Lemma nonce_len r o : wf_response K r -> (o + hide_bytes K <= union_size K)%nat -> length (slice o (hide_bytes K) (r_mem r)) = hide_bytes K.
Proof. intros [L _] H. unfold slice. rewrite firstn_length, skipn_length. lia. Qed.
(** ** Three answers to one commitment *)
Theorem three_answers junk prf rl rb rr h t0 t0' t1 t1' tl tl' tb tb' tr tr' :
  elem_ok P (p_E0 prf) -> elem_ok P (p_E1 prf) -> wf_response K rl -> wf_response K rb -> wf_response K rr ->
  check_packed K OW junk (p_E0 prf) t0 = Ok (true, t0') -> check_packed K OW junk (p_E1 prf) t1 = Ok (true, t1') ->
  int8 (r_tag rl) = -1 -> int8 (r_tag rb) = 0 -> int8 (r_tag rr) = 1 ->
  Unpack_Response K OW junk prf rl tl = Ok (Some h, tl') -> Unpack_Response K OW junk prf rb tb = Ok (Some h, tb') ->
  Unpack_Response K OW junk prf rr tr = Ok (Some h, tr') ->
  (exists r v r' v', hash_hiding_input r v <> hash_hiding_input r' v' /\ hash_hiding K r v = hash_hiding K r' v') \/
  linked canonical moved K (value (p_E0 prf)) (value (p_E1 prf)).
Proof.
  intros H0 H1 Hl Hb Hr C0 C1 El Eb Er Ul Ub Ur. destruct h as [h2 h3].
  rewrite check_word in C0, C1 by auto. apply accept_field in C0, C1.
  assert (Pass : forall t a, elem_ok P a -> (exists t', check_packed K OW junk a t = Ok (true, t')) -> SS (value a)).
  { intros t a Ha (t' & E). rewrite check_word in E by auto. exact (accept_field _ _ _ E). }
  pose proof (proj1 (response_spec junk prf rl tl _ _ H0 H1 Hl C0 C1 Ul h2 h3) eq_refl) as Ol.
  pose proof (proj1 (response_spec junk prf rb tb _ _ H0 H1 Hb C0 C1 Ub h2 h3) eq_refl) as Ob.
  pose proof (proj1 (response_spec junk prf rr tr _ _ H0 H1 Hr C0 C1 Ur h2 h3) eq_refl) as Or.
  destruct (special_sound GF (toF P (vunit P), f0) (qsqrt P HW Hp) (qlt P HW Hp) (qenc P HW Hp) (dec_val P HW Hp) (qrand P HW Hp)
    (two_nz P HG) (sqrt_GF P HG) (lt_GF_irr P HG) (lt_GF_trans P HG) (lt_GF_total P HG) (enc_inj P HG) SS HSS K HS _ _ rl rb rr (fun a => SS (value a)) h2 h3 C0 C1 (fun a X => X) El Eb Er
    (opens_imp _ _ _ _ _ _ _ Hl (Pass _) Ol) (opens_imp _ _ _ _ _ _ _ Hb (Pass _) Ob) (opens_imp _ _ _ _ _ _ _ Hr (Pass _) Or)) as [(r & v & r' & v' & HI & N & E)|HL]; [|right; exact HL].
  left. exists r, v, r', v'. split; [|exact E]. intros D. apply hiding_input_inj in D as [-> ->]; [now apply N|].
  assert (G : forall s o, wf_response K s -> (o <= Nat.max (hide_bytes K) (hash_bytes K))%nat -> length (slice o (hide_bytes K) (r_mem s)) = hide_bytes K).
  { clear. intros s o Hs Ho. apply nonce_len; auto. unfold union_size, active_size. cbn [Z.eqb]. lia. }
  clear - HI G Hl Hb Hr. cbn [In] in HI. destruct HI as [HI|[HI|[]]]; apply pair_equal_spec in HI as [<- <-]; unfold left_r2, bottom_r2, bottom_r3, right_r3; rewrite !G; auto; lia.
Qed.
End WW.
Lemma walk_configurations P : In P [P434 T64; P503 T64; P610 T64; P751 T64; P434 T32; P503 T32] -> good P /\ rand_ok P /\ strat_good P /\ exps32 P.
Proof.
  intros H. destruct (rand_ok_configurations P H) as [G R].
  assert (H8 : In P [P434 T64; P503 T64; P610 T64; P751 T64; P434 T32; P503 T32; P610 T32; P751 T32]) by (cbn [In] in *; intuition auto).
  split; [exact G|]. split; [exact R|]. split; [exact (strat_configurations P H8)|]. apply (order_configurations P H8).
Qed.
