(** Property theorems C08, C09, C23 (protocol), C39, C43, C44: what Verify depends on, and the command line tools. *)
From Coq Require Import Znumtheory.
From Verif Require Import Base BaseP Digits Out Params Fp Wf Poik Hashing HashSpec HashingP Codec CodecSpec CodecP Fld FpRep FpMisc FpMiscP FpInst
  Ops Ec Models Proto Sim ModelsSim ProtoSim WordOps FieldOps WordSim CurveSpec ModelSpec WordCurve WordModels ProtoSpec VerifyP Cli CliP Toy ZOps ToyRun.

(** Vocabulary: [good P] well-formed parameters with prime p; [rand_ok P] fprand returns values below 2p (shown
    for four configurations with 64-bit and two with 32-bit digits, C34); [wf_proof K p] the arrays of p have the
    sizes of struct proof; [equiv_proof K p q] (ProtoSpec.v) the packed field elements of p and q have the same
    residues modulo p, the nonces and hashes are the same, tags agree modulo 256; [junk] is the initial content of
    the uninitialised point in Check_Curve. *)

(** * C23: the protocol on digit arrays is the protocol over GF(p^2) *)
Theorem C23_Verify : forall K (HG : good (fpar K)), rand_ok (fpar K) -> forall junk junk' fuel p tp tps, wf_proof K p ->
  Verify K (word_ops (fpar K)) junk fuel p tp tps = Verify K (field_ops (fpar K) (HW _ HG) (Hp _ HG)) junk' fuel p tp tps.
Proof. exact Verify_word. Qed.
Print Assumptions C23_Verify.

Theorem C23_Generate : forall K (HG : good (fpar K)), rand_ok (fpar K) -> forall junk junk' E tp, elem_ok (fpar K) E ->
  Generate K (word_ops (fpar K)) junk E tp = Generate K (field_ops (fpar K) (HW _ HG) (Hp _ HG)) junk' E tp.
Proof. exact Generate_word. Qed.
Print Assumptions C23_Generate.

Theorem C23_Prove : forall K (HG : good (fpar K)), rand_ok (fpar K) -> forall fuel sec olds tps tps2,
  Forall (elem_ok (fpar K)) (sE sec) -> Forall (elem_ok (fpar K)) (sP sec) -> (width K < length (sE sec))%nat ->
  Prove K (word_ops (fpar K)) fuel sec olds tps tps2 = Prove K (field_ops (fpar K) (HW _ HG) (Hp _ HG)) fuel sec olds tps tps2.
Proof. exact Prove_word. Qed.
Print Assumptions C23_Prove.

Theorem C23_rand_ok : forall P, In P [P434 T64; P503 T64; P610 T64; P751 T64; P434 T32; P503 T32] -> good P /\ rand_ok P.
Proof. exact rand_ok_configurations. Qed.
Print Assumptions C23_rand_ok.

(** * C08: Verify does not depend on the chosen representative *)
Theorem C08_representative : forall K (HG : good (fpar K)), rand_ok (fpar K) -> forall junk junk' fuel p q tp tps,
  wf_proof K p -> wf_proof K q -> equiv_proof K p q ->
  Verify K (word_ops (fpar K)) junk fuel p tp tps = Verify K (word_ops (fpar K)) junk' fuel q tp tps.
Proof. exact Verify_equiv. Qed.
Print Assumptions C08_representative.

(** Dumping and parsing a proof does not change the result of Verify. *)
Theorem C08_read_back : forall K (HG : good (fpar K)), rand_ok (fpar K) ->
  forall p p0 suffix junk junk' fuel tp tps, (0 < hide_bytes K)%nat -> (0 < hash_bytes K)%nat ->
  wf_proof K p -> legal_tags p -> wf_proof K p0 ->
  exists q, Parse K p0 (proof_text K p ++ suffix) = Ok (Some (q, 10 :: suffix)) /\ p_E0 q = p_E0 p /\ p_E1 q = p_E1 p /\
  Verify K (word_ops (fpar K)) junk fuel q tp tps = Verify K (word_ops (fpar K)) junk' fuel p tp tps.
Proof. exact read_back. Qed.
Print Assumptions C08_read_back.

(** An accepted proof (one response of each kind) and a different encoding of it. *)
Example C08_example : forall junk,
  wf_proof K_toy prf_toy /\ wf_proof K_toy prf_toy2 /\ equiv_proof K_toy prf_toy prf_toy2 /\ p_E0 prf_toy <> p_E0 prf_toy2 /\
  Verify K_toy (word_ops Ptoy2) junk 5 prf_toy tp_toy tps_toy = Ok true /\
  Verify K_toy (word_ops Ptoy2) junk 5 prf_toy2 tp_toy tps_toy = Ok true /\
  map r_tag (p_resp prf_toy) = [-1; 0; 1].
Proof.
  intros junk. exact (conj wf_prf_toy (conj wf_prf_toy2 (conj toy_equiv (conj toy_ne (conj (toy_accepted junk) (conj (toy2_accepted junk) eq_refl)))))).
Qed.

(** * C09: proof files are malleable *)
Theorem C09_malleable_refuted : forall K (HG : good (fpar K)), rand_ok (fpar K) ->
  2 * par_p (fpar K) <= 256 ^ Z.of_nat (fp_bytes (fpar K)) ->
  forall junk fuel prf tp tps, wf_proof K prf -> Verify K (word_ops (fpar K)) junk fuel prf tp tps = Ok true ->
  exists prf', wf_proof K prf' /\ p_E0 prf' <> p_E0 prf /\ p_E1 prf' = p_E1 prf /\ p_resp prf' = p_resp prf /\
    equiv_proof K prf prf' /\ Verify K (word_ops (fpar K)) junk fuel prf' tp tps = Ok true.
Proof. exact malleable. Qed.
Print Assumptions C09_malleable_refuted.
(** the premises hold for all four proof systems *)
Theorem C09_room : forall K, In K [K434 T64; K503 T64; K610 T64; K751 T64; K434 T32; K503 T32] ->
  good (fpar K) /\ rand_ok (fpar K) /\ 2 * par_p (fpar K) <= 256 ^ Z.of_nat (fp_bytes (fpar K)).
Proof. exact room_configurations. Qed.
Print Assumptions C09_room.
(** witness: two different accepted proofs with the same contents, and verify prints different curves for them *)
Theorem C09_witness_refuted : forall junk,
  prf_toy <> prf_toy2 /\ equiv_proof K_toy prf_toy prf_toy2 /\
  Verify K_toy (word_ops Ptoy2) junk 5 prf_toy tp_toy tps_toy = Ok true /\
  Verify K_toy (word_ops Ptoy2) junk 5 prf_toy2 tp_toy tps_toy = Ok true /\
  fp2_text K_toy (p_E0 prf_toy) <> fp2_text K_toy (p_E0 prf_toy2).
Proof. exact toy_malleable. Qed.
Print Assumptions C09_witness_refuted.

(** * C39: tags *)
(** what holds: after conversion to signed char the tags of an accepted proof are legal *)
Theorem C39_tags_partial : forall K (O : fops) junk fuel p tp tps,
  Verify K O junk fuel p tp tps = Ok true -> Forall (fun r => legal_tag (int8 (r_tag r))) (p_resp p).
Proof. exact Verify_legal. Qed.
Print Assumptions C39_tags_partial.
(** what fails: adding multiples of 256 to the tags does not change the result *)
Theorem C39_tags_refuted : forall K (HG : good (fpar K)), rand_ok (fpar K) -> forall junk fuel prf prf' tp tps,
  wf_proof K prf -> p_E0 prf' = p_E0 prf -> p_E1 prf' = p_E1 prf ->
  Forall2 (fun r s => r_mem s = r_mem r /\ r_tag s mod 256 = r_tag r mod 256) (p_resp prf) (p_resp prf') ->
  wf_proof K prf' /\ Verify K (word_ops (fpar K)) junk fuel prf' tp tps = Verify K (word_ops (fpar K)) junk fuel prf tp tps.
Proof. exact retagged. Qed.
Print Assumptions C39_tags_refuted.
Example C39_example : forall junk,
  let prf := mkProof (p_E0 prf_toy) (p_E1 prf_toy) (map (fun r => mkResp (r_tag r + 256) (r_mem r)) (p_resp prf_toy)) in
  map r_tag (p_resp prf) = [255; 256; 257] /\ Verify K_toy (word_ops Ptoy2) junk 5 prf tp_toy tps_toy = Ok true.
Proof. exact toy_retagged. Qed.

(** * C43: exit codes of the command line tools *)
Theorem C43_verify_partial : forall K (O : fops) junk prf0 stdin malloc_ok (o : oracle) fuel tp tps c text,
  main_verify K O junk prf0 stdin malloc_ok o fuel tp tps = Ok (c, text) ->
  (c = 1 /\ malloc_ok = false /\ text = []) \/
  (malloc_ok = true /\
   ((c = -1 /\ Parse K prf0 stdin = Ok None /\ text = []) \/
    exists prf rest, Parse K prf0 stdin = Ok (Some (prf, rest)) /\
    ((c = 2 /\ Verify K O junk fuel prf tp tps = Ok false /\ text = []) \/
     (Verify K O junk fuel prf tp tps = Ok true /\
      ((c = 0 /\ text = fp2_text K (p_E0 prf) ++ fp2_text K (p_E1 prf)) \/
       (c = 3 /\ ~ forall i, o i = None)))))).
Proof. exact main_verify_spec. Qed.
Print Assumptions C43_verify_partial.
Theorem C43_verify_success : forall K (O : fops) junk prf0 stdin o fuel tp tps prf rest,
  Parse K prf0 stdin = Ok (Some (prf, rest)) -> Verify K O junk fuel prf tp tps = Ok true ->
  exists c text, main_verify K O junk prf0 stdin true o fuel tp tps = Ok (c, text) /\ (c = 0 \/ c = 3) /\
    ((forall i, o i = None) -> c = 0 /\ text = fp2_text K (p_E0 prf) ++ fp2_text K (p_E1 prf)).
Proof. exact main_verify_total. Qed.
Print Assumptions C43_verify_success.
Theorem C43_prove_partial : forall K (O : fops) junk args stdin malloc_ok (o : oracle) fuel tp olds tps tps2 c text,
  main_prove K O junk args stdin malloc_ok o fuel tp olds tps tps2 = Ok (c, text) ->
  (c = -1 /\ read_start K args stdin = Ok None /\ text = []) \/
  exists E0, read_start K args stdin = Ok (Some E0) /\
   ((c = 1 /\ text = [] /\ exists t, Generate K O junk E0 tp = Ok (None, t)) \/
    exists sec t, Generate K O junk E0 tp = Ok (Some sec, t) /\
    ((c = 2 /\ malloc_ok = false /\ text = []) \/
     (malloc_ok = true /\ exists prf, Prove K O fuel sec olds tps tps2 = Ok prf /\ legal_tags prf /\
      ((c = 0 /\ exists ls, Forall2 (fun t r => t = tag_text (r_tag r) ++ [10] \/ exists k, t = firstn k (tag_text (r_tag r) ++ [10])) ls (p_resp prf) /\
         text = fp2_text K (p_E0 prf) ++ fp2_text K (p_E1 prf) ++
           concat (map (fun x => fst x ++ response_body K (snd x)) (combine ls (p_resp prf)))) \/
       (c = 3 /\ ~ forall i, o i = None)) /\
      ((forall i, o i = None) -> c = 0 /\ text = proof_text K prf)))).
Proof. exact main_prove_spec. Qed.
Print Assumptions C43_prove_partial.
(** "every failure prints no curve" is false: when the second curve cannot be written, the first one has been *)
Theorem C43_one_line_refuted : forall K (O : fops) junk prf0 stdin fuel tp tps prf rest,
  Parse K prf0 stdin = Ok (Some (prf, rest)) -> Verify K O junk fuel prf tp tps = Ok true ->
  exists bad, main_verify K O junk prf0 stdin true (fun i => if (i =? bad)%nat then Some 0%nat else None) fuel tp tps =
    Ok (3, fp2_text K (p_E0 prf)).
Proof. exact main_verify_one_line. Qed.
Print Assumptions C43_one_line_refuted.
(** an input for which verify prints the two curves, and one that it does not read *)
Example C43_example : forall junk prf0, wf_proof K_toy prf0 ->
  main_verify K_toy (word_ops Ptoy2) junk prf0 (proof_text K_toy prf_toy) true (fun _ => None) 5 tp_toy tps_toy =
    Ok (0, fp2_text K_toy (p_E0 prf_toy) ++ fp2_text K_toy (p_E1 prf_toy)) /\
  main_verify K_toy (word_ops Ptoy2) junk prf0 [] true (fun _ => None) 5 tp_toy tps_toy = Ok (-1, []).
Proof. exact toy_cli. Qed.

(** * C44: contributions chain up *)
(** What is printed as end curve, fed to prove, becomes the packed form of that curve, and verify prints exactly
    this line first. *)
Theorem C44_chain_partial : forall K (HG : good (fpar K)), (0 < hide_bytes K)%nat -> (0 < hash_bytes K)%nat ->
  let OW := word_ops (fpar K) in
  forall junk junk2 prf0 stdin m o fuel tp tps out1, wf_proof K prf0 ->
  main_verify K OW junk prf0 stdin m o fuel tp tps = Ok (0, out1) ->
  exists e0 e1, out1 = fp2_text K e0 ++ fp2_text K e1 /\ elem_ok (fpar K) e1 /\
  forall suffix m' fuel' tp' olds tps' tps2 text2,
  main_prove K OW junk2 [] (fp2_text K e1 ++ suffix) m' (fun _ => None) fuel' tp' olds tps' tps2 = Ok (0, text2) ->
  exists b, pack_curve OW (unpack_curve OW e1) = Ok b /\ elem_ok (fpar K) b /\ (exists rest, text2 = fp2_text K b ++ rest) /\
  forall junk3 prf2 s2 m2 o2 fuel2 tp2 tps3 out2,
  main_verify K OW junk3 prf2 (text2 ++ s2) m2 o2 fuel2 tp2 tps3 = Ok (0, out2) -> exists rest, out2 = fp2_text K b ++ rest.
Proof. exact chain_up. Qed.
Print Assumptions C44_chain_partial.
(** For a contribution made by Prove the packed form is the line itself. *)
Theorem C44_honest_partial : forall K (HG : good (fpar K)) fuel sec olds tps tps2 prf,
  let OW := word_ops (fpar K) in
  Prove K OW fuel sec olds tps tps2 = Ok prf ->
  let e := nth (width K) (sE sec) [] in elem_ok (fpar K) e -> full4 (dec_val (fpar K) (HW _ HG) (Hp _ HG) e : GF (fpar K) HG) ->
  pack_curve OW (unpack_curve OW (p_E1 prf)) = Ok (p_E1 prf).
Proof. exact honest_end. Qed.
Print Assumptions C44_honest_partial.
(** In general it is not: every accepted proof has an accepted variant, equal up to the choice of
    representatives, whose end curve is not the packed form of itself. *)
Theorem C44_chain_refuted : forall K (HG : good (fpar K)), rand_ok (fpar K) ->
  2 * par_p (fpar K) <= 256 ^ Z.of_nat (fp_bytes (fpar K)) ->
  let OW := word_ops (fpar K) in
  forall junk fuel prf tp tps, wf_proof K prf -> Verify K OW junk fuel prf tp tps = Ok true ->
  exists prf', wf_proof K prf' /\ equiv_proof K prf prf' /\ Verify K OW junk fuel prf' tp tps = Ok true /\
  pack_curve OW (unpack_curve OW (p_E1 prf')) <> Ok (p_E1 prf').
Proof. exact unchainable. Qed.
Print Assumptions C44_chain_refuted.
(** the end curve of the toy proof is packed *)
Example C44_example :
  match pack_curve (word_ops Ptoy2) (unpack_curve (word_ops Ptoy2) (p_E1 prf_toy)) with
  | Ok b => if list_eq_dec Z.eq_dec b (p_E1 prf_toy) then true else false
  | _ => false
  end = true.
Proof. vm_compute. reflexivity. Qed.
