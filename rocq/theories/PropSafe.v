(** Property theorems C58, C59: undefined behaviour of the two programs. *)
From Coq Require Import Znumtheory.
From Verif Require Import Base BaseP Digits Out Params Fp Wf Poik Hashing Codec CodecSpec Fld FpRep FpMisc FpMiscP FpInst Ops Ec Models Proto Sim ModelsSim ProtoSim WordOps FieldOps WordSim CurveSpec IsogSpec ModelSpec OrderSpec ProtoSpec WalkSpec WordCurve WordModels WordCheck XIsog WordIsog ChainP WordWalk PolyEv Hasse SupSpec WordMax WordVerify ParseP Cli SafeSpec WordSafe WordSafeProve Toy ZOps ToyRun ToyMax.

(** Vocabulary (SafeSpec.v): [defined o]: the run o ends with a result, with fail() or because the random bytes are used up; [safe_run K fuel o]: or the model's
    bound fuel on squeezed blocks is too small for some commitment; neither allows UB, the model's value for a read or write outside an array, the use of the
    result of a failed call, or a wrong argument of a library function; [unreadable text]: text contains a byte 128..254 or a decimal number of at least 2^31. *)

(** * C58: verify *)
(** Verify on any proof in memory: whatever the 4-isogenies, 3-isogenies and points encoded in it. *)
Theorem C58_Verify : forall K (HG : good (fpar K)), rand_ok (fpar K) -> strat_good (fpar K) -> exps32 (fpar K) ->
  forall junk fuel prf tp tps, (0 < width K)%nat -> wf_proof K prf -> safe_run K fuel (Verify K (word_ops (fpar K)) junk fuel prf tp tps).
Proof. exact Verify_safe. Qed.
Print Assumptions C58_Verify.
(** The program, on any input: undefined only while an unreadable text is read. *)
Theorem C58_program : forall K (HG : good (fpar K)), rand_ok (fpar K) -> strat_good (fpar K) -> exps32 (fpar K) ->
  forall junk prf0 stdin malloc_ok o fuel tp tps, positive_sizes K -> (0 < width K)%nat -> wf_proof K prf0 ->
  safe_run K fuel (main_verify K (word_ops (fpar K)) junk prf0 stdin malloc_ok o fuel tp tps) \/
  malloc_ok = true /\ unreadable stdin /\ Parse K prf0 stdin = UB /\ main_verify K (word_ops (fpar K)) junk prf0 stdin malloc_ok o fuel tp tps = UB.
Proof. exact verify_program_safe. Qed.
Print Assumptions C58_program.
(** An accepted text, and one with the byte 200. *)
Example C58_example : forall junk prf0, wf_proof K_toy prf0 ->
  main_verify K_toy (word_ops Ptoy2) junk prf0 (proof_text K_toy prf_toy) true (fun _ => None) 5 tp_toy tps_toy =
    Ok (0, fp2_text K_toy (p_E0 prf_toy) ++ fp2_text K_toy (p_E1 prf_toy)) /\
  main_verify K_toy (word_ops Ptoy2) junk prf0 [48; 120; 200; 48] true (fun _ => None) 5 tp_toy tps_toy = UB.
Proof. intros junk prf0 H. split; [exact (proj1 (toy_cli junk prf0 H))|reflexivity]. Qed.

(** * C59: prove *)
Theorem C59_Generate : forall K (HG : good (fpar K)), rand_ok (fpar K) -> strat_good (fpar K) -> exps32 (fpar K) ->
  forall junk a tp, elem_ok (fpar K) a -> defined (Generate K (word_ops (fpar K)) junk a tp).
Proof. exact Generate_safe. Qed.
Print Assumptions C59_Generate.
Theorem C59_Prove : forall K (HG : good (fpar K)), rand_ok (fpar K) -> strat_good (fpar K) -> exps32 (fpar K) ->
  forall junk a tp sec t fuel olds tps tps2, (0 < width K)%nat -> (0 < height K)%nat -> elem_ok (fpar K) a ->
  Generate K (word_ops (fpar K)) junk a tp = Ok (Some sec, t) -> (forall i, digits 256 (tps2 i)) ->
  safe_run K fuel (Prove K (word_ops (fpar K)) fuel sec olds tps tps2).
Proof. exact Prove_no_ub. Qed.
Print Assumptions C59_Prove.
Theorem C59_program : forall K (HG : good (fpar K)), rand_ok (fpar K) -> strat_good (fpar K) -> exps32 (fpar K) ->
  forall junk args stdin malloc_ok o fuel tp olds tps tps2, (0 < width K)%nat -> (0 < height K)%nat -> (forall i, digits 256 (tps2 i)) ->
  safe_run K fuel (main_prove K (word_ops (fpar K)) junk args stdin malloc_ok o fuel tp olds tps tps2) \/
  hd_error args <> Some initial_arg /\ unreadable stdin /\ Parse_Fp2 K stdin = UB /\
  main_prove K (word_ops (fpar K)) junk args stdin malloc_ok o fuel tp olds tps tps2 = UB.
Proof. exact prove_program_safe. Qed.
Print Assumptions C59_program.
(** Started with --initial the toy prover is defined on every input; without, the byte 200 is undefined. *)
Example C59_example : forall junk stdin malloc_ok o fuel tp olds tps tps2, (forall i, digits 256 (tps2 i)) ->
  safe_run K_toy fuel (main_prove K_toy (word_ops Ptoy2) junk [initial_arg] stdin malloc_ok o fuel tp olds tps tps2) /\
  main_prove K_toy (word_ops Ptoy2) junk [] [48; 120; 200; 48] malloc_ok o fuel tp olds tps tps2 = UB.
Proof.
  intros junk stdin m o fuel tp olds tps tps2 D. split; [|reflexivity].
  destruct (C59_program K_toy good_toy2 rand_toy2 toy_strat toy_exps junk [initial_arg] stdin m o fuel tp olds tps tps2 ltac:(cbn; lia) ltac:(cbn; lia) D) as [H|(N & _)];
    [exact H|]. exfalso. apply N. reflexivity.
Qed.
