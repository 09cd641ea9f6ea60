(** Property theorems C36, C37, C41: what Verify accepts, three answers to one commitment, and walks without backtracking. *)
From Coq Require Import Znumtheory.
From Verif Require Import Base BaseP Digits Out Params Fp Wf Poik Hashing HashSpec HashingP Codec CodecSpec CodecP Fld FpRep FpMisc FpMiscP FpInst
  Ops Ec Models Proto Sim ModelsSim ProtoSim WordOps FieldOps WordSim CurveSpec IsogSpec ModelSpec XSpec OrderSpec ProtoSpec WalkSpec WordCurve WordModels WordCheck XIsog WordIsog ChainP WordWalk SupSpec WordMax WordVerify Toy ZOps ToyRun.

(** Vocabulary (WalkSpec.v): x-coordinates are elements of [xl]: [XInf] for the point at infinity, [XF x].
    [walk2 canon other n A d qs B]: every point of [qs] has exact order 2^n on its curve, the walk starts at the curve
    with coefficient A, continues from the least model of the codomain of the step before it and ends at B; no step has
    the x-coordinate of the dual kernel of the step before it (for the first step: d) below its own kernel point.
    [walk3 canon n]: the same with order 3^n. [comp2], [comp3]: the image of an x-coordinate under the composed isogeny.
    [opens]: what a response must satisfy. [canonicalP], [movedP] (WordWalk.v): the choices canonical_model and change_model make.
    [maximalP P HG A] (SupSpec.v): y^2 = x^3 + A x^2 + x is nonsingular and has (p+1)^2 points over GF(p^2). *)

(** * The choices of the code *)
Theorem C41_canonical : forall K (HG : good (fpar K)) (A : GF (fpar K) HG), full4 A ->
  let c := canonicalP (fpar K) HG A in iso_to A (fst (fst c)) (snd (fst c)) (snd c) /\ least (fpar K) HG A (fst (fst c)).
Proof. exact canonical_ok. Qed.
Print Assumptions C41_canonical.
Theorem C41_moved : forall K (HG : good (fpar K)) (A : GF (fpar K) HG), full4 A ->
  let c := movedP (fpar K) HG A in iso_to A (fst (fst c)) (snd (fst c)) (snd c) /\ snd (fst c) <> k0.
Proof. exact moved_ok. Qed.
Print Assumptions C41_moved.

(** * C41: Unpack_Chain_A and Unpack_Chain_B succeed exactly on the walks without backtracking *)
Theorem C41_A : forall K (HG : good (fpar K)), rand_ok (fpar K) -> strat_good (fpar K) ->
  let SS := maximalP (fpar K) HG in
  forall junk a xs tp o tp', elem_ok (fpar K) a -> Forall (elem_ok (fpar K)) xs -> SS (valueP (fpar K) HG a) ->
  Unpack_Chain_A K (word_ops (fpar K)) junk a xs tp = Ok (o, tp') ->
  let walk := walk2 (canonicalP (fpar K) HG) (movedP (fpar K) HG) (e2 (fpar K)) (valueP (fpar K) HG a) None
                (map (fun x => XF (valueP (fpar K) HG x : GF (fpar K) HG)) xs) in
  match o with
  | Some E => nons (fpar K) HG E /\ SS (coef (fpar K) HG E) /\ walk (coef (fpar K) HG E)
  | None => forall A', ~ walk A'
  end.
Proof. exact (fun K HG HR HS => chain_A_word K HG HR HS _ (max_class _ HG)). Qed.
Print Assumptions C41_A.

Theorem C41_B : forall K (HG : good (fpar K)), rand_ok (fpar K) -> strat_good (fpar K) ->
  let SS := maximalP (fpar K) HG in
  forall junk a xs tp o tp', elem_ok (fpar K) a -> Forall (elem_ok (fpar K)) xs -> SS (valueP (fpar K) HG a) ->
  Unpack_Chain_B K (word_ops (fpar K)) junk a xs tp = Ok (o, tp') ->
  let walk := walk3 (canonicalP (fpar K) HG) (e3 (fpar K)) (valueP (fpar K) HG a) None
                (map (fun x => XF (valueP (fpar K) HG x : GF (fpar K) HG)) xs) in
  match o with
  | Some E => nons (fpar K) HG E /\ SS (coef (fpar K) HG E) /\ walk (coef (fpar K) HG E)
  | None => forall A', ~ walk A'
  end.
Proof. exact (fun K HG HR HS => chain_B_word K HG HR HS _ (max_class _ HG)). Qed.
Print Assumptions C41_B.

(** The composed isogeny of such a walk is cyclic: of the points of order 2 (order 3) only those under the first kernel
    point are mapped to the point at infinity, so its kernel contains neither E[2] nor E[3]. *)
Theorem C41_cyclic_A : forall K (HG : good (fpar K)), strat_good (fpar K) ->
  let SS := maximalP (fpar K) HG in
  forall A d q qs A' s, SS A -> walk2 (canonicalP (fpar K) HG) (movedP (fpar K) HG) (e2 (fpar K)) A d (q :: qs) A' ->
  dblx A s = XInf -> s <> XInf -> s <> Nat.iter (e2 (fpar K) - 1) (dblx A) q ->
  comp2 (canonicalP (fpar K) HG) (movedP (fpar K) HG) (e2 (fpar K)) A (q :: qs) s = Some (A', XF k0).
Proof. exact (fun K HG HS => walk2_cyclic K HG HS _ (max_class _ HG)). Qed.
Print Assumptions C41_cyclic_A.
Theorem C41_cyclic_B : forall K (HG : good (fpar K)), strat_good (fpar K) ->
  let SS := maximalP (fpar K) HG in
  forall A d q qs A' s, SS A -> walk3 (canonicalP (fpar K) HG) (e3 (fpar K)) A d (q :: qs) A' ->
  tplx A s = XInf -> s <> XInf -> s <> Nat.iter (e3 (fpar K) - 1) (tplx A) q ->
  exists s', comp3 (canonicalP (fpar K) HG) (e3 (fpar K)) A (q :: qs) s = Some (A', s') /\ s' <> XInf.
Proof. exact (fun K HG HS => walk3_cyclic K HG HS _ (max_class _ HG)). Qed.
Print Assumptions C41_cyclic_B.

(** Two steps over the integer operations that simulate the digit arrays: accepted; with another second point of
    the same order, whose multiple of order 2 (3) is the dual kernel: refused; the single step: accepted. *)
Definition fate {A} (o : out (option A * tape)) : option bool :=
  match o with Ok (Some _, _) => Some true | Ok (None, _) => Some false | _ => None end.
Definition start_toy : list Z := p_E0 prf_toy.
Example C41_example_A :
  let chain xs := fate (Unpack_Chain_A K_toy OZ junkz start_toy xs tp_toy) in
  (chain [[18; 226; 133; 178; 140; 64]; [121; 131; 17; 113; 11; 136]], chain [[18; 226; 133; 178; 140; 64]; [217; 105; 68; 26; 200; 2]],
   chain [[18; 226; 133; 178; 140; 64]]) = (Some true, Some false, Some true).
Proof. vm_cast_no_check (eq_refl (Some true, Some false, Some true)). Qed.
Example C41_example_B :
  let chain xs := fate (Unpack_Chain_B K_toy OZ junkz start_toy xs (some_bytes 400 7)) in
  (chain [[55; 35; 148; 145; 166; 45]; [244; 109; 1; 249; 206; 9]], chain [[55; 35; 148; 145; 166; 45]; [132; 126; 119; 80; 136; 110]],
   chain [[55; 35; 148; 145; 166; 45]]) = (Some true, Some false, Some true).
Proof. vm_cast_no_check (eq_refl (Some true, Some false, Some true)). Qed.

(** * C36: what Verify accepts *)
(** [opens ... pass A0 A1 r h2 h3]: the response r opens the commitments (h2, h3); [pass] is what is required of the curve in a bottom response. *)
Theorem C36_Verify : forall K (HG : good (fpar K)), rand_ok (fpar K) -> strat_good (fpar K) -> exps32 (fpar K) ->
  let value := valueP (fpar K) HG in let encode := encodeP (fpar K) HG in let SS := maximalP (fpar K) HG in
  forall junk fuel prf tp tps b, wf_proof K prf -> Verify K (word_ops (fpar K)) junk fuel prf tp tps = Ok b ->
  b = true <->
  SS (value (p_E0 prf)) /\ SS (value (p_E1 prf)) /\
  exists hs,
    Forall2 (fun r h => opens (canonicalP (fpar K) HG) (movedP (fpar K) HG) encode value K (fun a => SS (value a)) (value (p_E0 prf)) (value (p_E1 prf)) r (fst h) (snd h))
      (p_resp prf) hs /\
    Challenge K fuel (mkComm (encode (jinv (value (p_E0 prf)) k1)) (encode (jinv (value (p_E1 prf)) k1)) hs) (repeat 0 (reps K)) =
      Ok (map (fun r => int8 (r_tag r)) (p_resp prf)).
Proof. exact Verify_exact. Qed.
Print Assumptions C36_Verify.

Theorem C36_response : forall K (HG : good (fpar K)), rand_ok (fpar K) -> strat_good (fpar K) -> exps32 (fpar K) ->
  let value := valueP (fpar K) HG in let SS := maximalP (fpar K) HG in
  forall junk prf r tp o tp', elem_ok (fpar K) (p_E0 prf) -> elem_ok (fpar K) (p_E1 prf) -> wf_response K r ->
  SS (value (p_E0 prf)) -> SS (value (p_E1 prf)) ->
  Unpack_Response K (word_ops (fpar K)) junk prf r tp = Ok (o, tp') -> forall h2 h3,
  o = Some (h2, h3) <->
  opens (canonicalP (fpar K) HG) (movedP (fpar K) HG) (encodeP (fpar K) HG) value K (fun a => SS (value a)) (value (p_E0 prf)) (value (p_E1 prf)) r h2 h3.
Proof. exact response_exact. Qed.
Print Assumptions C36_response.

(** The premises on the parameters hold for these configurations. *)
Theorem C36_configurations : forall P, In P [P434 T64; P503 T64; P610 T64; P751 T64; P434 T32; P503 T32] ->
  good P /\ rand_ok P /\ strat_good P /\ exps32 P.
Proof. exact walk_configurations. Qed.
Print Assumptions C36_configurations.

(** The accepted toy proof, and the same with one bit of the nonce of the first response changed. *)
Definition prf_changed : proof := mkProof (p_E0 prf_toy) (p_E1 prf_toy)
  (mkResp (-1) [227; 122; 214; 14; 106; 144; 85; 75; 60; 11; 146; 88; 0; 0; 0; 0; 0; 0; 0; 0] :: tl (p_resp prf_toy)).
Example C36_example : let ver p := match Verify K_toy OZ junkz 5 p tp_toy tps_toy with Ok b => Some b | _ => None end in
  (ver prf_toy, ver prf_changed) = (Some true, Some false).
Proof. vm_cast_no_check (eq_refl (Some true, Some false)). Qed.

(** * C37: three answers to one commitment *)
(** [linked canon other K A0 A1]: walks of degree 3^(e3 height) from A0, of degree 2^(e2 width) from a curve isomorphic to its end, and of
    degree 3^(e3 height) from A1 to a curve isomorphic to the end of the second walk. *)
Theorem C37_three_answers : forall K (HG : good (fpar K)), rand_ok (fpar K) -> strat_good (fpar K) ->
  exps32 (fpar K) ->
  let OW := word_ops (fpar K) in
  forall junk prf rl rb rr h t0 t0' t1 t1' tl tl' tb tb' tr tr',
  elem_ok (fpar K) (p_E0 prf) -> elem_ok (fpar K) (p_E1 prf) -> wf_response K rl -> wf_response K rb -> wf_response K rr ->
  check_packed K OW junk (p_E0 prf) t0 = Ok (true, t0') -> check_packed K OW junk (p_E1 prf) t1 = Ok (true, t1') ->
  int8 (r_tag rl) = -1 -> int8 (r_tag rb) = 0 -> int8 (r_tag rr) = 1 ->
  Unpack_Response K OW junk prf rl tl = Ok (Some h, tl') -> Unpack_Response K OW junk prf rb tb = Ok (Some h, tb') ->
  Unpack_Response K OW junk prf rr tr = Ok (Some h, tr') ->
  (exists r v r' v', hash_hiding_input r v <> hash_hiding_input r' v' /\ hash_hiding K r v = hash_hiding K r' v') \/
  linked (canonicalP (fpar K) HG) (movedP (fpar K) HG) K (valueP (fpar K) HG (p_E0 prf)) (valueP (fpar K) HG (p_E1 prf)).
Proof. exact (fun K HG HR HS small => three_answers K HG HR HS _ (max_class _ HG) small (max_cert _ HG)). Qed.
Print Assumptions C37_three_answers.
(** Three answers of the honest prover to one commitment of the toy protocol. *)
Example C37_example :
  let open r := match Unpack_Response K_toy OZ junkz prf_toy r (some_bytes 100 5) with Ok (x, _) => x | _ => None end in
  map open [mkResp (-1) [9; 202; 112; 125; 70; 216; 143; 64; 147; 155; 57; 7; 0; 0; 0; 0; 0; 0; 0; 0];
            mkResp 0 [9; 202; 112; 125; 160; 155; 44; 94; 166; 1; 8; 150; 45; 117; 125; 203; 43; 125; 91; 76];
            mkResp 1 [135; 16; 160; 155; 44; 94; 89; 84; 153; 37; 132; 23; 0; 0; 0; 0; 0; 0; 0; 0]] =
  [Some ([135; 16], [70; 216]); Some ([135; 16], [70; 216]); Some ([135; 16], [70; 216])].
Proof. vm_cast_no_check (eq_refl [Some ([135; 16], [70; 216]); Some ([135; 16], [70; 216]); Some ([135; 16], [70; 216])]). Qed.
