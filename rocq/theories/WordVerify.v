(** The verifier decides the relation stated with the number of points of the curves (proofs only). *)
From Coq Require Import Znumtheory.
From Verif Require Import Base BaseP Digits Out Params Fp Wf Poik Hashing HashSpec HashingP Codec CodecSpec CodecP Fld FpRep FpMisc FpMiscP FpInst
  Ops Ec Models Proto Sim ModelsSim ProtoSim WordOps FieldOps WordSim CurveSpec IsogSpec ModelSpec XSpec OrderSpec ProtoSpec WalkSpec WordCurve WordModels WordCheck XIsog WordIsog ChainP WordWalk
  SupSpec WordMax VerifyP Toy ZOps ToyRun.
Set Bullet Behavior "Strict Subproofs".

Lemma Forall2_nth_iff {A B} (R : A -> B -> Prop) l : forall m, Forall2 R l m <->
  length l = length m /\ forall i a b, nth_error l i = Some a -> nth_error m i = Some b -> R a b.
Proof.
  induction l as [|a l IH]; intros [|b m]; cbn [length]; split.
  - intros _. split; auto. intros [|i] x y H; discriminate H.
  - constructor.
  - intros H; inversion H.
  - intros [H _]; discriminate H.
  - intros H; inversion H.
  - intros [H _]; discriminate H.
  - intros H. inversion H as [|? ? ? ? H1 H2]; subst. apply IH in H2 as [L G]. split; auto. intros [|i] x y; cbn [nth_error]; [congruence|apply G].
  - intros [L G]. constructor; [apply (G 0%nat); reflexivity|]. apply IH. split; auto. intros i x y H1 H2. exact (G (S i) x y H1 H2).
Qed.
(** ** Runs that end without error, over any operations *)
Section Gen.
Variables (K : pok) (O : fops) (junk : pt O).
Lemma response_bottom prf r tp c t : int8 (r_tag r) = 0 -> Unpack_Response K O junk prf r tp = Ok (c, t) -> exists ok t', check_packed K O junk (bottom_E2 K r) tp = Ok (ok, t').
Proof.
  intros E. unfold Unpack_Response. rewrite int8_eq, E. cbv zeta. change (0 =? RESP_LEFT) with false. change (0 =? RESP_BOTTOM) with true. cbv iota.
  destruct (check_packed K O junk (bottom_E2 K r) tp) as [[ok t']| | | |]; cbn [bind]; intros H; try discriminate. eauto.
Qed.
Lemma responses_run prf tps rs : forall i o, responses K O junk prf tps i rs = Ok o ->
  (forall j r c t, nth_error rs j = Some r -> Unpack_Response K O junk prf r (tps (i + j)%nat) = Ok (c, t) -> c <> None) ->
  forall j r, nth_error rs j = Some r -> exists c t, Unpack_Response K O junk prf r (tps (i + j)%nat) = Ok (c, t).
Proof.
  induction rs as [|r0 rs IH]; intros i o H N [|j] r Hj; try discriminate.
  - injection Hj as <-. cbn [responses] in H. rewrite Nat.add_0_r. destruct (Unpack_Response K O junk prf r0 (tps i)) as [[c t]| | | |]; try discriminate. eauto.
  - cbn [nth_error] in Hj. cbn [responses] in H. pose proof (N 0%nat r0) as N0. rewrite Nat.add_0_r in N0.
    destruct (Unpack_Response K O junk prf r0 (tps i)) as [[c t]| | | |]; cbn [bind] in H; try discriminate.
    specialize (N0 _ _ eq_refl eq_refl). destruct c as [c|]; [|now destruct N0].
    destruct (responses K O junk prf tps (S i) rs) as [o'| | | |] eqn:ER; try discriminate.
    rewrite <- Nat.add_succ_comm. apply (IH (S i) o' ER); auto. intros j' r' c' t' E U. apply (N (S j') r' c' t'); auto. now rewrite <- Nat.add_succ_comm.
Qed.
Lemma Verify_run fuel prf tp tps b : Verify K O junk fuel prf tp tps = Ok b ->
  exists ok0 t1, check_packed K O junk (p_E0 prf) tp = Ok (ok0, t1) /\
  (ok0 = true -> exists ok1 t2, check_packed K O junk (p_E1 prf) t1 = Ok (ok1, t2) /\
  (ok1 = true -> exists o, responses K O junk prf tps 0 (p_resp prf) = Ok o)).
Proof.
  unfold Verify. destruct (check_packed _ _ _ _ tp) as [[[|] t]| | | |]; cbn [bind negb]; try discriminate.
  2:{ intros _. exists false, t. split; [reflexivity|]. discriminate. }
  destruct (check_packed _ _ _ _ t) as [[[|] t']| | | |] eqn:E1; cbn [bind negb]; try discriminate.
  2:{ intros _. exists true, t. split; [reflexivity|]. intros _. exists false, t'. split; [exact E1|]. discriminate. }
  destruct (responses _ _ _ _ _ _ _) as [hs| | | |] eqn:E; cbn [bind]; try discriminate.
  intros _. exists true, t. split; [reflexivity|]. intros _. exists true, t'. split; [exact E1|]. intros _. exists hs. reflexivity.
Qed.
End Gen.

Lemma ch_mono n : forall f f' done st ch r, (f <= f')%nat -> ch_loop n f done st ch = Ok r -> ch_loop n f' done st ch = Ok r.
Proof.
  induction f as [|f IH]; intros [|f'] done st ch r L H; [exact H|..]; try (exfalso; lia).
  - cbn [ch_loop] in H |- *. destruct (done <? n)%nat; [discriminate H|exact H].
  - cbn [ch_loop] in H |- *. destruct (done <? n)%nat; [|exact H].
    revert H. destruct (Keccak.shake256_squeezeblocks 1 st) as [h st']. destruct (sample_ternary _ _ _) as [[m rest]| | | |]; cbn [bind]; try discriminate. apply IH. lia.
Qed.
Lemma Verify_mono K O junk f f' prf tp tps b : (f <= f')%nat -> Verify K O junk f prf tp tps = Ok b -> Verify K O junk f' prf tp tps = Ok b.
Proof.
  intros L. unfold Verify. destruct (check_packed _ _ _ _ tp) as [[[|] t]| | | |]; cbn [bind negb]; try discriminate; auto.
  destruct (check_packed _ _ _ _ t) as [[[|] t']| | | |]; cbn [bind negb]; try discriminate; auto.
  destruct (responses _ _ _ _ _ _ _) as [[hs|]| | | |]; cbn [bind]; try discriminate; auto.
  unfold Challenge. generalize (Keccak.shake256_absorb (repeat 0 25) (challenge_input (mkComm (enc_j O (unpack_curve O (p_E0 prf))) (enc_j O (unpack_curve O (p_E1 prf))) hs))). intros st.
  destruct (ch_loop (reps K) f 0 st (repeat 0 (reps K))) as [c| | | |] eqn:E; cbn [bind]; try discriminate.
  now rewrite (ch_mono _ _ _ _ _ _ _ L E).
Qed.

Section WV.
Variable K : pok.
Notation P := (fpar K).
Variable HG : good P.
Hypothesis HR : rand_ok P.
Hypothesis HS : strat_good P.
Hypothesis small : exps32 P.
Notation OW := (word_ops P).
Local Notation GF := (GF P HG).
Local Notation canonical := (canonicalP P HG). Local Notation moved := (movedP P HG).
Local Notation value := (valueP P HG). Local Notation encode := (encodeP P HG).
Local Notation maxi := (maximalP P HG).
Notation opens := (@WalkSpec.opens GF canonical moved encode value K).
Local Notation OF := (field_ops P (FpInst.HW P HG) (FpInst.Hp P HG)).

Lemma kill_shape (x : GF) R : maxi x -> on x k1 R -> pmul x k1 (2 ^ e2 P * 3 ^ e3 P) R = Inf.
Proof.
  intros M HM. pose proof (max_kill P HG x R M HM) as E. rewrite (shape1 P HG) in E.
  replace (2 ^ e2 P * 3 ^ e3 P)%nat with (Z.to_nat (2 ^ Z.of_nat (e2 P) * 3 ^ Z.of_nat (e3 P))); [exact E|].
  apply Nat2Z.inj. rewrite Z2Nat.id, Nat2Z.inj_mul, !Nat2Z.inj_pow; auto.
  apply Z.mul_nonneg_nonneg; apply Z.pow_nonneg; lia.
Qed.
Lemma refuse_coef j (x : GF) tp tp' : Check_Curve OF P j (@mkCurve OF x (k1 : GF)) tp = Ok (false, tp') -> ~ maxi x.
Proof.
  intros H M. exact (CheckP.check_complete GF _ _ _ _ _ _ (two_nz P HG) P x (proj1 M) j (@mkCurve OF x (k1 : GF)) tp tp' eq_refl eq_refl (fun R => kill_shape x R M) H).
Qed.
Lemma refuse_field a tp tp' : check_packed K OF (@mkPt OF (k0 : GF) (k0 : GF)) a tp = Ok (false, tp') -> ~ maxi (value a).
Proof. exact (refuse_coef _ (value a) tp tp'). Qed.
Lemma check_packed_exact junk a tp b t : elem_ok P a -> check_packed K OW junk a tp = Ok (b, t) -> (b = true <-> maxi (value a)).
Proof.
  intros Ha H. rewrite (check_word K HG HR junk a tp Ha) in H. destruct b.
  - split; [intros _|reflexivity]. exact (accept_field K HG maxi small (max_cert P HG) a tp t H).
  - split; [discriminate|]. intros M. destruct (refuse_field a tp t H M).
Qed.
Lemma opens_zero (f g : list Z -> Prop) A0 A1 r h2 h3 : (int8 (r_tag r) = 0 -> f (bottom_E2 K r) -> g (bottom_E2 K r)) -> opens f A0 A1 r h2 h3 -> opens g A0 A1 r h2 h3.
Proof. unfold WalkSpec.opens. intros E. destruct (int8 (r_tag r)) as [|[| |]|[| |]]; tauto. Qed.
Lemma opens_exact junk prf r tp c t h2 h3 A0 A1 : wf_response K r -> Unpack_Response K OW junk prf r tp = Ok (c, t) ->
  opens (fun a => exists t', check_packed K OW junk a tp = Ok (true, t')) A0 A1 r h2 h3 <-> opens (fun a => maxi (value a)) A0 A1 r h2 h3.
Proof.
  intros Hr U. pose proof (wf_bottom K HG r Hr) as Hb. split; apply opens_zero.
  - intros _ (t' & E). exact (proj1 (check_packed_exact _ _ _ _ _ Hb E) eq_refl).
  - intros Z M. destruct (response_bottom K OW junk prf r tp c t Z U) as (ok & t' & E). exists t'. rewrite E. now rewrite (proj2 (check_packed_exact _ _ _ _ _ Hb E) M).
Qed.
Theorem response_exact junk prf r tp o tp' : elem_ok P (p_E0 prf) -> elem_ok P (p_E1 prf) -> wf_response K r -> maxi (value (p_E0 prf)) -> maxi (value (p_E1 prf)) ->
  Unpack_Response K OW junk prf r tp = Ok (o, tp') ->
  forall h2 h3, o = Some (h2, h3) <-> opens (fun a => maxi (value a)) (value (p_E0 prf)) (value (p_E1 prf)) r h2 h3.
Proof.
  intros H0 H1 Hr M0 M1 U h2 h3. rewrite <- (opens_exact junk prf r tp o tp' h2 h3 _ _ Hr U).
  exact (response_spec K HG HR HS maxi (max_class P HG) small (max_cert P HG) junk prf r tp o tp' H0 H1 Hr M0 M1 U h2 h3).
Qed.
Theorem Verify_exact junk fuel prf tp tps b : wf_proof K prf -> Verify K OW junk fuel prf tp tps = Ok b ->
  b = true <-> maxi (value (p_E0 prf)) /\ maxi (value (p_E1 prf)) /\
    exists hs, Forall2 (fun r h => opens (fun a => maxi (value a)) (value (p_E0 prf)) (value (p_E1 prf)) r (fst h) (snd h)) (p_resp prf) hs /\
    Challenge K fuel (mkComm (encode (jinv (value (p_E0 prf)) k1)) (encode (jinv (value (p_E1 prf)) k1)) hs) (repeat 0 (reps K)) =
      Ok (map (fun r => int8 (r_tag r)) (p_resp prf)).
Proof.
  intros Hwf H. pose proof (Verify_spec K HG HR HS maxi (max_class P HG) small (max_cert P HG) junk fuel prf tp tps b Hwf H) as HV.
  destruct (Verify_run K OW junk fuel prf tp tps b H) as (ok0 & t1 & C0 & R0).
  destruct Hwf as ([L0 D0] & [L1 D1] & _ & Hr). rewrite Forall_forall in Hr.
  assert (H0 : elem_ok P (p_E0 prf)) by (split; auto). assert (H1 : elem_ok P (p_E1 prf)) by (split; auto).
  rewrite HV. clear HV. split.
  - intros (t1' & t2 & hs & E0 & E1 & L & G & C). pose proof (proj1 (check_packed_exact _ _ _ _ _ H0 E0) eq_refl) as M0.
    pose proof (proj1 (check_packed_exact _ _ _ _ _ H1 E1) eq_refl) as M1. split; [exact M0|]. split; [exact M1|]. exists hs. split; [|exact C].
    apply Forall2_nth_iff. split; [symmetry; exact L|]. intros i r h Ei Eh. destruct (G i r Ei) as (h2 & h3 & E & Ho). rewrite Eh in E. injection E as ->. cbn [fst snd].
    revert Ho. apply opens_zero. intros _ (t' & E). apply nth_error_In in Ei. exact (proj1 (check_packed_exact _ _ _ _ _ (wf_bottom K HG r (Hr r Ei)) E) eq_refl).
  - intros (M0 & M1 & hs & F & C). pose proof (proj2 (check_packed_exact _ _ _ _ _ H0 C0) M0) as T0. subst ok0.
    destruct (R0 eq_refl) as (ok1 & t2 & C1 & R1). pose proof (proj2 (check_packed_exact _ _ _ _ _ H1 C1) M1) as T1. subst ok1. destruct (R1 eq_refl) as (o & RR).
    apply Forall2_nth_iff in F as [L G].
    assert (U : forall i r, nth_error (p_resp prf) i = Some r -> exists c t, Unpack_Response K OW junk prf r (tps i) = Ok (c, t)).
    { intros i r Ei. refine (responses_run K OW junk prf tps (p_resp prf) 0%nat o RR _ i r Ei). intros j r' c t Ej EU.
      destruct (nth_error hs j) as [[h2 h3]|] eqn:Eh; [|apply nth_error_None in Eh; assert (j < length (p_resp prf))%nat by (apply nth_error_Some; congruence); lia].
      pose proof (nth_error_In _ _ Ej) as Ij. pose proof (proj2 (response_exact junk prf r' _ c t H0 H1 (Hr r' Ij) M0 M1 EU h2 h3) (G j r' _ Ej Eh)) as E. congruence. }
    exists t1, t2, hs. split; [exact C0|]. split; [exact C1|]. split; [symmetry; exact L|]. split; [|exact C].
    intros i r Ei. destruct (nth_error hs i) as [[h2 h3]|] eqn:Eh; [|apply nth_error_None in Eh; assert (i < length (p_resp prf))%nat by (apply nth_error_Some; congruence); lia].
    exists h2, h3. split; [reflexivity|]. destruct (U i r Ei) as (c & t & EU). pose proof (nth_error_In _ _ Ei) as Ii.
    exact (proj2 (opens_exact junk prf r (tps i) c t h2 h3 _ _ (Hr r Ii) EU) (G i r _ Ei Eh)).
Qed.
(** Two runs on the same proof that end give the same answer. *)
Theorem Verify_verdict junk junk' fuel fuel' prf tp tp' tps tps' b b' : wf_proof K prf ->
  Verify K OW junk fuel prf tp tps = Ok b -> Verify K OW junk' fuel' prf tp' tps' = Ok b' -> b = b'.
Proof.
  intros Hw H H'. pose proof (Verify_mono K OW junk fuel (Nat.max fuel fuel') prf tp tps b (Nat.le_max_l _ _) H) as G.
  pose proof (Verify_mono K OW junk' fuel' (Nat.max fuel fuel') prf tp' tps' b' (Nat.le_max_r _ _) H') as G'.
  pose proof (Verify_exact junk _ prf tp tps b Hw G) as X. pose proof (Verify_exact junk' _ prf tp' tps' b' Hw G') as X'.
  rewrite <- X' in X. destruct b, b'; auto; [symmetry|]; apply X; reflexivity.
Qed.
End WV.
