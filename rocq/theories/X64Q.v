(** Proofs for C65: the programs of the x86-64 build give the results of the portable build. *)
From Coq Require Import Znumtheory.
From Verif Require Import Base BaseP Digits DigitsP Out Params Fp Wf FpP Fld FpRep FpMisc FpMiscP FpInst Poik Hashing Codec CodecSpec Ops Ec Models Proto Sidh Sim ModelsSim ProtoSim
  SidhSim WordOps FieldOps WordSim CurveSpec WordCurve ProtoSpec VerifyP Toy ToyRun WordSidh Asm AsmP434 AsmRedP AsmRun434 X64 X64P.
Set Bullet Behavior "Strict Subproofs".

Local Notation P := (P434 T64).
Local Notation OX := x64_ops.
Local Notation OW := (word_ops P).
Local Notation HG := (good_434 T64).
Local Notation HW := (FpInst.HW P HG). Local Notation Hp := (FpInst.Hp P HG).
Local Notation OF := (field_ops P HW Hp).
Local Notation SX := (x64_sim HW Hp).
Lemma rand434 : rand_ok P.
Proof. apply rand_ok_64. now left. Qed.
Lemma RX : rand_sim SX.
Proof. exact (x64_rand HW Hp rand434). Qed.
Section Prog.
Variables r w h hb hd : nat.
Let K := mkPok P r w h hb hd.
Lemma Verify_x_k junk junk' fuel p tp tps : wf_proof K p -> Verify K OX junk fuel p tp tps = Verify K OW junk' fuel p tp tps.
Proof.
  intros H. transitivity (Verify K OF (@mkPt OF (o_zero OF) (o_zero OF)) fuel p tp tps).
  - apply (Verify_sim K _ _ SX RX). exact (wf_proof_bytes K HG p H).
  - symmetry. exact (Verify_word K HG rand434 junk' _ fuel p tp tps H).
Qed.
Lemma Generate_x_k junk junk' E tp : elem_ok P E -> Generate K OX junk E tp = Generate K OW junk' E tp.
Proof.
  intros H. transitivity (Generate K OF (@mkPt OF (o_zero OF) (o_zero OF)) E tp).
  - exact (Generate_sim K _ _ SX RX junk _ E tp H).
  - symmetry. exact (Generate_word K HG rand434 junk' _ E tp H).
Qed.
Lemma Prove_x_k fuel sec olds tps tps2 : Forall (elem_ok P) (sE sec) -> Forall (elem_ok P) (sP sec) -> (w < length (sE sec))%nat ->
  Prove K OX fuel sec olds tps tps2 = Prove K OW fuel sec olds tps tps2.
Proof.
  intros H1 H2 H3. transitivity (Prove K OF fuel sec olds tps tps2).
  - exact (Prove_sim K _ _ SX RX fuel sec olds tps tps2 (conj H1 H2) H3).
  - symmetry. exact (Prove_word K HG rand434 fuel sec olds tps tps2 H1 H2 H3).
Qed.
End Prog.
Lemma Verify_x K : fpar K = P -> forall junk junk' fuel p tp tps, wf_proof K p ->
  Verify K OX junk fuel p tp tps = Verify K OW junk' fuel p tp tps.
Proof. destruct K as [Q r w h hb hd]. cbn [fpar]. intros E. subst Q. exact (Verify_x_k r w h hb hd). Qed.
Lemma Generate_x K : fpar K = P -> forall junk junk' E tp, elem_ok P E ->
  Generate K OX junk E tp = Generate K OW junk' E tp.
Proof. destruct K as [Q r w h hb hd]. cbn [fpar]. intros E. subst Q. exact (Generate_x_k r w h hb hd). Qed.
Lemma Prove_x K : fpar K = P -> forall fuel sec olds tps tps2,
  Forall (elem_ok P) (sE sec) -> Forall (elem_ok P) (sP sec) -> (width K < length (sE sec))%nat ->
  Prove K OX fuel sec olds tps tps2 = Prove K OW fuel sec olds tps tps2.
Proof. destruct K as [Q r w h hb hd]. cbn [fpar width]. intros E. subst Q. exact (Prove_x_k r w h hb hd). Qed.

(** ** SIDH *)
Lemma x64_half : half_sim SX.
Proof.
  destruct (word_half P HW Hp) as (H1 & H2 & H3). split; [exact H1|]. split; [exact H2|].
  intros a x c z Ha Hc. specialize (H3 a x c z Ha Hc). cbv zeta in *.
  pose proof (s_sqr _ _ (word_sim P HW Hp) 4 a x Ha eq_refl) as Hs. pose proof (s_rel _ _ (word_sim P HW Hp) _ _ Hs) as Hs2.
  pose proof (s_madd _ _ (word_sim P HW Hp) 2 2 _ _ _ _ Hs2 Hs2 eq_refl) as Hm.
  pose proof (s_sub _ _ (word_sim P HW Hp) 4 2 _ _ _ _ Hm Hc eq_refl) as Hu.
  cbn [o_add o_sub o_madd o_sqr x64_ops]. rewrite (sqr_x HW Hp a x Ha).
  change (o_sqr OW a) with (fp2sqr_mont P a) in *. generalize dependent (fp2sqr_mont P a). intros s H3 [S0 S1] [T0 T1] [M0 M1] [U0 U1].
  destruct Hc as [C0 C1]. unfold comp2. cbn [fst snd].
  rewrite (mp_add_x_eq _ _ (proj1 T0) (proj1 T0)), (mp_add_x_eq _ _ (proj1 T1) (proj1 T1)).
  change (mp_addfast P (fst s) (fst s)) with (fst (o_madd OW s s)). change (mp_addfast P (snd s) (snd s)) with (snd (o_madd OW s s)).
  rewrite (fpsub_x_eq _ _ (proj1 M0) (proj1 C0)), (fpsub_x_eq _ _ (proj1 M1) (proj1 C1)).
  change (fpsub P (fst (o_madd OW s s)) (fst c)) with (fst (o_sub OW (o_madd OW s s) c)).
  change (fpsub P (snd (o_madd OW s s)) (snd c)) with (snd (o_sub OW (o_madd OW s s) c)).
  rewrite (fpadd_x_eq _ _ (proj1 U0) (proj1 U0)), (fpadd_x_eq _ _ (proj1 U1) (proj1 U1)). exact H3.
Qed.
Definition xg (g : gens OW) : gens OX := @mkGens OX (gP g) (gQ g) (gR g).
Lemma grel_x g : grng P g -> grel OX OF SX (xg g) (gel P HG g).
Proof. exact (grel_gel P HG g). Qed.
Lemma keygen_x gA gB sk : grng P gA -> grng P gB ->
  EphemeralKeyGeneration_A OX P (xg gA) (xg gB) sk = EphemeralKeyGeneration_A OW P gA gB sk /\
  EphemeralKeyGeneration_B OX P (xg gA) (xg gB) sk = EphemeralKeyGeneration_B OW P gA gB sk.
Proof.
  intros HA HB. split.
  - transitivity (EphemeralKeyGeneration_A OF P (gel P HG gA) (gel P HG gB) sk).
    + exact (keygen_A_sim _ _ SX x64_half P _ _ _ _ (grel_x gA HA) (grel_x gB HB) sk).
    + symmetry. exact (keygen_A_sim _ _ (word_sim P HW Hp) (word_half P HW Hp) P _ _ _ _ (grel_gel P HG gA HA) (grel_gel P HG gB HB) sk).
  - transitivity (EphemeralKeyGeneration_B OF P (gel P HG gA) (gel P HG gB) sk).
    + exact (keygen_B_sim _ _ SX x64_half P _ _ _ _ (grel_x gA HA) (grel_x gB HB) sk).
    + symmetry. exact (keygen_B_sim _ _ (word_sim P HW Hp) (word_half P HW Hp) P _ _ _ _ (grel_gel P HG gA HA) (grel_gel P HG gB HB) sk).
Qed.
Lemma agree_x sk pk : length pk = 330%nat -> digits 256 pk ->
  EphemeralSecretAgreement_A OX P sk pk = EphemeralSecretAgreement_A OW P sk pk.
Proof.
  intros L D. pose proof (pk_shape P HG pk L D) as H. transitivity (EphemeralSecretAgreement_A OF P sk pk).
  - exact (agree_A_sim _ _ SX x64_half P sk pk H).
  - symmetry. exact (agree_A_sim _ _ (word_sim P HW Hp) (word_half P HW Hp) P sk pk H).
Qed.
Lemma agree_x_B differ differ' square square' sk pk : length pk = 330%nat -> digits 256 pk ->
  EphemeralSecretAgreement_B OX P differ square sk pk = EphemeralSecretAgreement_B OW P differ' square' sk pk.
Proof.
  intros L D. pose proof (pk_shape P HG pk L D) as H. transitivity (EphemeralSecretAgreement_B OF P (fun _ _ => false) None sk pk).
  - exact (agree_B_sim _ _ SX x64_half P sk pk _ _ _ _ H).
  - symmetry. exact (agree_B_sim _ _ (word_sim P HW Hp) (word_half P HW Hp) P sk pk _ _ _ _ H).
Qed.
(** ** Products of the x86-64 code, by its bytes *)
Lemma mul_x_bytes a b : elem_ok P a -> elem_ok P b -> o_enc OX (o_mul OX (o_dec OX a) (o_dec OX b)) = o_enc OF (o_mul OF (o_dec OF a) (o_dec OF b)).
Proof.
  intros Ha Hb. apply (s_enc _ _ SX), (s_rel _ _ SX). eapply (s_mul _ _ SX 2 2); [apply (s_rel _ _ SX), (s_dec _ _ SX); exact Ha|apply (s_rel _ _ SX), (s_dec _ _ SX); exact Hb|reflexivity].
Qed.
Definition bytes_of (x y : Z) : list Z := toB 256 55 x ++ toB 256 55 y.
Lemma i_squared : o_enc OX (o_mul OX (o_dec OX (bytes_of 0 1)) (o_dec OX (bytes_of 0 1))) = bytes_of (2 ^ 216 * 3 ^ 137 - 2) 0.
Proof.
  rewrite mul_x_bytes; [|split; [apply digits_app; split; apply toB_digits; lia|reflexivity]..].
  generalize HW Hp. intros H1 H2. lazy. reflexivity.
Qed.
