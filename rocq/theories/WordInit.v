(** The start curve of "prove --initial" (proofs only). *)
From Coq Require Import Znumtheory.
From Verif Require Import Base BaseP Digits DigitsP Out Params Fp Wf FpP Poik Hashing Codec CodecSpec Fld FpRep FpMisc FpMiscP PrimeInst FpInst Ops Ec Models Proto Sim ModelsSim ProtoSim
  WordOps FieldOps WordSim CurveSpec ModelSpec IsogSpec XSpec OrderSpec WalkSpec SupSpec FldCurve GroupP FldModels WordCurve WordModels WordCheck WordWalk PolyEv Hasse ClassP WordMax InitP ParseP CodecP Cli CliP WordHonest WordVerify.
Set Bullet Behavior "Strict Subproofs".

Section WI.
Variable P : params.
Hypothesis HG : good P.
Local Notation HW := (FpInst.HW P HG). Local Notation Hp := (FpInst.Hp P HG).
Local Notation GF := (GF P HG).
Definition kth56 := kth GF.
Add Field KF56 : kth56.
Theorem max_zero : maximalP P HG (k0 : GF).
Proof.
  destruct (odd_sq P HG) as [m Hm]. destruct (shape_n P HG) as [a Ha]. destruct (sq_m1 P HG) as [i Hi].
  pose proof (z_ns GF (two_nz P HG)) as NS. split; [exact NS|]. destruct (points_GF P HG k0 NS) as [l Hl]. exists l. split; [exact Hl|]. fold (pn P).
  assert (E : (pn P + 1 = 8 * (2 ^ a * 3 ^ e3 P))%nat) by (rewrite Ha; cbn [Nat.pow]; lia).
  assert (X : (2 ^ a * 3 ^ e3 P <> 0)%nat) by (apply Nat.neq_mul_0; split; apply Nat.pow_nonzero; lia). revert E X. generalize (2 ^ a * 3 ^ e3 P)%nat. intros q E X.
  exact (zero_count GF (two_nz P HG) (gfs P HG) (gfs_nodup P HG) (gfs_all P HG) (pn P) m (pn_prime P HG) (kn_p P HG) (gfs_len P HG) Hm (2 * q - 1)%nat ltac:(lia) i Hi l Hl ltac:(lia)).
Qed.
Theorem max_six : maximalP P HG (3 * 2 : GF)%F.
Proof.
  destruct (sq_m1 P HG) as [i Hi]. assert (N : i <> (k0 : GF)) by exact (i_nz GF i Hi).
  assert (E : A2 i = (3 * 2 : GF)%F). { unfold A2. rewrite Hi. change (@eq (Fld.K GF) (2 - 4 * - k1)%F (3 * 2)%F). ring. }
  rewrite <- E. apply (ss_2 (max_class P HG) k0 i max_zero). split; [exact N|]. cbn [dblx]. destruct (kdec _ _) as [_|X]; [reflexivity|]. exfalso. apply X. unfold fx.
  transitivity (i * (i * i + 1) : GF)%F; [match goal with |- ?a = ?b => change (@eq (Fld.K GF) a b) end; ring|]. rewrite Hi. match goal with |- ?a = ?b => change (@eq (Fld.K GF) a b) end. ring.
Qed.
Lemma toB_zero k : toB 256 k 0 = repeat 0 k.
Proof. induction k as [|k IH]; [reflexivity|]. cbn [toB repeat]. f_equal. exact IH. Qed.
Lemma enc_zero : encodeP P HG k0 = repeat 0 (2 * fp_bytes P).
Proof.
  change (toB 256 (fp_bytes P) (0 mod par_p P) ++ toB 256 (fp_bytes P) (0 mod par_p P) = repeat 0 (2 * fp_bytes P)). rewrite Z.mod_0_l by (pose proof (prime_ge_2 _ Hp); lia).
  rewrite toB_zero, <- repeat_app. f_equal. lia.
Qed.
Lemma dec_zero : valueP P HG (repeat 0 (2 * fp_bytes P)) = k0.
Proof. rewrite <- enc_zero. apply (dec_enc P HG). Qed.
Lemma lt_zero (x : GF) : qlt P HW Hp x (k0 : GF) = false.
Proof.
  unfold qlt. pose proof (prime_ge_2 _ Hp) as B. pose proof (fval_bound (par_p P) (fst x) ltac:(lia)). pose proof (fval_bound (par_p P) (snd x) ltac:(lia)).
  assert (E1 : fval (fst (k0 : GF)) = 0) by (change (0 mod par_p P = 0); apply Z.mod_0_l; lia).
  assert (E2 : fval (snd (k0 : GF)) = 0) by (change (0 mod par_p P = 0); apply Z.mod_0_l; lia). rewrite E1, E2.
  rewrite (proj2 (Z.ltb_ge _ _)) by lia. rewrite (proj2 (Z.ltb_ge _ 0)) by lia. now rewrite andb_false_r.
Qed.
Lemma iso_self (A : GF) : isomorphic A A.
Proof. exists k0, k1. split; [apply (one_nz GF)|]. unfold fx. split; [|split]; match goal with |- ?a = ?b => change (@eq (Fld.K GF) a b) end; ring. Qed.
Lemma least_zero (B : GF) : least P HG k0 B -> B = k0.
Proof. intros [_ H]. apply (lt_GF_total P HG); [apply lt_zero|]. apply H, iso_self. Qed.
End WI.

Section WI2.
Variable K : pok.
Notation P := (fpar K).
Variable HG : good P.
Hypothesis HR : rand_ok P.
Hypothesis small : exps32 P.
Notation OW := (word_ops P).
Notation zero := (repeat 0 (sidh_bytes K)).
Lemma zero_elem : elem_ok P zero.
Proof. split; [|apply repeat_length]. apply Forall_forall. intros x Hx. apply repeat_spec in Hx. subst x. lia. Qed.
Lemma zero_val : valueP P HG zero = k0. Proof. exact (dec_zero P HG). Qed.
Theorem initial_check junk tp b t : check_packed K OW junk zero tp = Ok (b, t) -> b = true.
Proof. intros H. apply (check_packed_exact K HG HR small junk zero tp b t zero_elem H). rewrite zero_val. apply max_zero. Qed.
Theorem initial_generate junk tp r t : Generate K OW junk zero tp = Ok (r, t) -> r <> None.
Proof.
  unfold Generate. destruct (check_packed K OW junk zero tp) as [[b t1]| | | |] eqn:E; cbn [bind]; try discriminate.
  rewrite (initial_check junk tp b t1 E). destruct (Random_Isogeny_Chain_A K OW _ _) as [[c t2]| | | |]; cbn [bind]; try discriminate.
  intros H N. subst r. discriminate H.
Qed.
Lemma initial_pack b : pack_curve OW (unpack_curve OW zero) = Ok b -> b = zero.
Proof.
  intros H. destruct (unpack_word P HG zero zero_elem) as (U1 & U2 & U3).
  assert (EC : coef P HG (unpack_curve OW zero) = k0) by (etransitivity; [exact U3|exact zero_val]).
  destruct (pack_curve_group P HG (unpack_curve OW zero) U1) as (B & HL & EP).
  - rewrite U2. apply (one_nz (GF P HG)).
  - rewrite EC. exact (ss_full4 (max_class P HG) k0 (max_zero P HG)).
  - rewrite EC in HL. rewrite (least_zero P HG B HL) in EP. rewrite EP in H. change (b = repeat 0 (2 * fp_bytes P)). rewrite <- (enc_zero P HG). congruence.
Qed.
Theorem initial_program junk more stdin m fuel tp olds tps tps2 c text :
  main_prove K OW junk (initial_arg :: more) stdin m (fun _ => None) fuel tp olds tps tps2 = Ok (c, text) ->
  if m then c = 0 /\ exists rest, text = fp2_text K zero ++ rest else c = 2 /\ text = [].
Proof.
  intros H. apply main_prove_spec in H. unfold prove_cases in H.
  assert (ER : read_start K (initial_arg :: more) stdin = Ok (Some zero)) by (unfold read_start; destruct (list_eq_dec Z.eq_dec initial_arg initial_arg); [reflexivity|contradiction]).
  rewrite ER in H. destruct H as [(_ & E & _)|(E0 & E & H)]; [discriminate E|]. assert (E0 = zero) as -> by congruence. clear E ER.
  destruct H as [(_ & _ & t & EG)|(sec & t & EG & H)]; [destruct (initial_generate junk tp None t EG eq_refl)|].
  destruct H as [(-> & -> & ->)|(-> & prf & EP & _ & _ & HN)]; [auto|]. destruct (HN (fun _ => eq_refl)) as [-> ->]. split; [reflexivity|].
  pose proof (start_curve K HG junk zero tp sec t fuel olds tps tps2 prf zero_elem EG EP) as HS. rewrite <- (initial_pack _ HS). eexists. reflexivity.
Qed.
End WI2.
