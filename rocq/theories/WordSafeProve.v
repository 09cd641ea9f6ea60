(** The two programs over the digit arrays: no undefined behaviour (proofs only). *)
From Coq Require Import Znumtheory.
From Verif Require Import Base BaseP Digits Out Params Fp Wf FpP Poik Hashing HashSpec HashingP Codec CodecSpec CodecP ParseP CodecThm CodecMore Fld FpRep FpMisc FpMiscP FpInst
  Ops Ec Models Proto Sim ModelsSim ProtoSim WordOps FieldOps WordSim CurveSpec IsogSpec ModelSpec XSpec OrderSpec ProtoSpec WalkSpec WordCurve WordModels WordCheck XIsog WordIsog ChainP WordWalk
  SupSpec WordMax WordVerify VerifyP Cli CliP HonestP WordHonest SafeSpec SafeP SafeProveP WordSafe.
Set Bullet Behavior "Strict Subproofs".

Section Gen.
Variable K : pok.
Lemma vbody_safe fuel pr vf malloc_ok o : (pr = UB -> False) -> (forall p rest, pr = Ok (Some (p, rest)) -> safe_run K fuel (vf p)) -> safe_run K fuel pr ->
  safe_run K fuel (vbody K pr vf malloc_ok o).
Proof.
  intros H1 H2 H3. unfold vbody. destruct malloc_ok; [|exact I]. apply safe_bind; [exact H3|]. intros [[p rest]|] E; [|exact I].
  apply safe_bind; [exact (H2 _ _ E)|]. intros [|] _; [|exact I].
  destruct (Dump_Fp2 K o (p_E0 p) (mkStream [] 0)) as [[|] s]; [|exact I]. destruct (Dump_Fp2 K o (p_E1 p) s) as [ok s']. exact I.
Qed.
Lemma vbody_ub fuel pr vf malloc_ok o : (forall p rest, pr = Ok (Some (p, rest)) -> safe_run K fuel (vf p)) -> (pr <> UB -> safe_run K fuel pr) ->
  safe_run K fuel (vbody K pr vf malloc_ok o) \/ malloc_ok = true /\ pr = UB /\ vbody K pr vf malloc_ok o = UB.
Proof.
  intros H2 H3. destruct malloc_ok; [|left; exact I].
  destruct pr as [x| | | |] eqn:E; try (left; apply vbody_safe; [discriminate|exact H2|apply H3; discriminate]).
  right. auto.
Qed.
Lemma pbody_ub fuel rs ge pv malloc_ok o : (forall a, rs = Ok (Some a) -> defined (ge a)) ->
  (forall a s t, rs = Ok (Some a) -> ge a = Ok (Some s, t) -> safe_run K fuel (pv s)) ->
  (forall s p, pv s = Ok p -> legal_tags p) -> (rs <> UB -> safe_run K fuel rs) ->
  safe_run K fuel (pbody K rs ge pv malloc_ok o) \/ rs = UB /\ pbody K rs ge pv malloc_ok o = UB.
Proof.
  intros HG HP HT HR. assert (D : rs = UB \/ safe_run K fuel rs) by (destruct rs; auto; right; apply HR; discriminate).
  destruct D as [->|D]; [right; auto|left]. unfold pbody. apply safe_bind; [exact D|]. intros [a|] E; [|exact I].
  apply safe_bind; [apply safe_of_defined; exact (HG a E)|]. intros [[s|] t] EG; [|exact I]. destruct malloc_ok; [|exact I].
  apply safe_bind; [exact (HP a s t E EG)|]. intros p EP. destruct (Dump_spec K o p (mkStream [] 0) (HT _ _ EP)) as (ok & s' & -> & _). exact I.
Qed.
End Gen.
Section WSP.
Variable K : pok.
Notation P := (fpar K).
Variable HG : good P.
Hypothesis HR : rand_ok P.
Hypothesis HS : strat_good P.
Hypothesis small : exps32 P.
Notation OW := (word_ops P).
Local Notation HW := (FpInst.HW P HG). Local Notation Hp := (FpInst.Hp P HG).
Local Notation GF := (GF P HG).
Local Notation maxi := (maximalP P HG).
Local Notation OF := (field_ops P HW Hp).
Notation junkF := (@mkPt OF (k0 : GF) (k0 : GF)).
Local Notation "'ARGS' f" := (f GF (toF P (vunit P), f0) (qsqrt P HW Hp) (qlt P HW Hp) (qenc P HW Hp) (dec_val P HW Hp) (qrand P HW Hp)) (at level 10, only parsing).
Theorem Generate_safe junk a tp : elem_ok P a -> defined (Generate K OW junk a tp).
Proof. intros Ha. rewrite (Generate_word K HG HR junk junkF a tp Ha). 
  exact (ARGS Generate_def (two_nz P HG) (sqrt_GF P HG) (lt_GF_irr P HG) (lt_GF_trans P HG) (lt_GF_total P HG) maxi (max_class P HG) K HS
    (qrand_short K HG) (qrand_def K HG) (kill_shape K HG) junkF (accept_field K HG maxi small (max_cert P HG)) a tp).
 Qed.
Theorem Prove_no_ub junk a tp sec t fuel olds tps tps2 : (0 < width K)%nat -> (0 < height K)%nat -> elem_ok P a ->
  Generate K OW junk a tp = Ok (Some sec, t) -> (forall i, digits 256 (tps2 i)) -> safe_run K fuel (Prove K OW fuel sec olds tps tps2).
Proof.
  intros Hw Hh Ha EG D2. destruct (gen_word K HG HR HS maxi (max_class P HG) small (max_cert P HG) junk a tp sec t Ha EG) as (_ & HE & HP & HA & A1 & Hs).
  rewrite (Prove_word K HG HR fuel sec olds tps tps2 HE HP (sec_long K HG _ _ _ Hs)).
  exact (ARGS Prove_safe (two_nz P HG) (three_nz K HG) (sqrt_GF P HG) (lt_GF_irr P HG) (lt_GF_trans P HG) (lt_GF_total P HG) maxi (max_class P HG) K HS
    (qrand_short K HG) (qrand_def K HG) (kill_shape K HG) (w2 P HW) (wf_radix8 P HW) (dec_enc P HG) (enc_shape K HG) (enc_digs K HG) (rand_rest K HG) junkF
    (accept_field K HG maxi small (max_cert P HG)) fuel sec _ A1 olds tps tps2 Hw Hh Hs HA D2).
Qed.
Lemma unreadable_eq text : CodecThm.risky text -> unreadable text. Proof. exact (fun H => H). Qed.
Theorem verify_program_safe junk prf0 stdin malloc_ok o fuel tp tps : positive_sizes K -> (0 < width K)%nat -> wf_proof K prf0 ->
  safe_run K fuel (main_verify K OW junk prf0 stdin malloc_ok o fuel tp tps) \/
  malloc_ok = true /\ unreadable stdin /\ Parse K prf0 stdin = UB /\ main_verify K OW junk prf0 stdin malloc_ok o fuel tp tps = UB.
Proof.
  intros Hz Hw Hwf. rewrite main_verify_body.
  destruct (vbody_ub K fuel (Parse K prf0 stdin) (fun p => Verify K OW junk fuel p tp tps) malloc_ok o) as [D|(D1 & D2 & D3)].
  - intros p rest E. apply (Verify_safe K HG HR HS small); auto. apply Parse_inv in E; auto. tauto.
  - destruct (safe_Parse K prf0 stdin) as [(p & a & f & -> & _)|[->|[-> _]]]; intros N; try exact I. congruence.
  - left. exact D.
  - right. split; [exact D1|]. split; [|split; [exact D2|exact D3]].
    destruct (safe_Parse K prf0 stdin) as [(p & a & f & E & _)|[E|[_ E]]]; [congruence|congruence|exact E].
Qed.
Theorem prove_program_safe junk args stdin malloc_ok o fuel tp olds tps tps2 : (0 < width K)%nat -> (0 < height K)%nat -> (forall i, digits 256 (tps2 i)) ->
  safe_run K fuel (main_prove K OW junk args stdin malloc_ok o fuel tp olds tps tps2) \/
  hd_error args <> Some initial_arg /\ unreadable stdin /\ Parse_Fp2 K stdin = UB /\ main_prove K OW junk args stdin malloc_ok o fuel tp olds tps tps2 = UB.
Proof.
  intros Hw Hh D2. rewrite main_prove_body.
  destruct (pbody_ub K fuel (read_start K args stdin) (fun a => Generate K OW junk a tp) (fun sec => Prove K OW fuel sec olds tps tps2) malloc_ok o) as [D|(D1 & D3)].
  - intros a E. apply Generate_safe. exact (read_start_ok K args stdin a E).
  - intros a s t E EG. exact (Prove_no_ub junk a tp s t fuel olds tps tps2 Hw Hh (read_start_ok K args stdin a E) EG D2).
  - intros s p. apply Prove_tags.
  - unfold read_start. destruct (safe_fp2 K stdin) as [(p & a & f & -> & _)|[->|[-> _]]]; cbn [bind]; destruct args as [|b l]; try (destruct (list_eq_dec _ _ _)); intros N; try exact I; congruence.
  - left. exact D.
  - right. unfold read_start in D1. destruct (safe_fp2 K stdin) as [(p & a & f & E & _)|[E|[E X]]]; rewrite E in D1; cbn [bind] in D1;
    (destruct args as [|b l]; [|destruct (list_eq_dec Z.eq_dec b initial_arg) as [|N]]); try discriminate D1.
    + split; [discriminate|]. split; [exact X|]. split; [exact E|exact D3].
    + split; [cbn; congruence|]. split; [exact X|]. split; [exact E|exact D3].
Qed.
End WSP.
