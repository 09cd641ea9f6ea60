(** Property theorems C40, C54, C55: what an honest prover makes, and whether the verifier accepts it. *)
From Coq Require Import Znumtheory.
From Verif Require Import Base BaseP Digits Out Params Fp Wf Poik Hashing HashSpec HashingP Codec CodecSpec CodecP Fld FpRep FpMisc FpMiscP FpInst
  Ops Ec Models Proto Sim ModelsSim ProtoSim WordOps FieldOps WordSim CurveSpec IsogSpec ModelSpec XSpec OrderSpec ProtoSpec WalkSpec HonestSpec WordCurve WordModels WordCheck XIsog WordIsog ChainP WordWalk SupSpec WordMax Cli CliP WordHonest Toy ZOps ToyRun ToyHonest.

(** Vocabulary (HonestSpec.v): [path2 other n A d l B], [path3 n A d l B]: [l] lists curves and points of exact order 2^n (3^n) on them; each
    curve is the quotient of the one before it by its point, the last quotient is B, and no isogeny starts with the dual of the last step of
    the one before it.  [special_j A]: the j-invariant is 0 or 1728.  [holds c l] (WordHonest.v): the tables of the chain c in memory are these curves and
    points.  [plain c]: no curve strictly inside the chain c has j-invariant 0 or 1728.
    [maximalP P HG A] (SupSpec.v): y^2 = x^3 + A x^2 + x is nonsingular and has (p+1)^2 points over GF(p^2). *)

(** * C40: honest proofs verify *)
(** True when no curve strictly inside one of the chains of degree 3^(e3 height) has j-invariant 0 or 1728. *)
Theorem C40_honest_partial : forall K (HG : good (fpar K)), rand_ok (fpar K) -> strat_good (fpar K) ->
  exps32 (fpar K) ->
  let OW := word_ops (fpar K) in
  forall junk a tp0 sec t0 fuel olds tps tps2 prf fuel' tp tps3 b, elem_ok (fpar K) a ->
  Generate K OW junk a tp0 = Ok (Some sec, t0) -> Prove K OW fuel sec olds tps tps2 = Ok prf ->
  (forall i, digits 256 (tps i)) -> (forall i, digits 256 (tps2 i)) -> (forall i, length (olds i) = union_size K /\ digits 256 (olds i)) ->
  (forall i v c t, (i < reps K)%nat -> Instance K OW sec (tps i) = Ok (v, c, t) -> plain K HG (i_left _ v) /\ plain K HG (i_right _ v)) ->
  Verify K OW junk fuel' prf tp tps3 = Ok b -> b = true.
Proof. exact (fun K HG HR HS small junk a tp0 sec t0 fuel olds tps tps2 prf fuel' tp tps3 b Ha => honest_word K HG HR HS _ (max_class _ HG) small (max_cert _ HG)
  junk a tp0 sec t0 fuel olds tps tps2 prf fuel' tp tps3 b Ha (max_kill _ HG)). Qed.
Print Assumptions C40_honest_partial.

(** In general it is false: a run of Generate and Prove whose proof Verify refuses (the left chain passes through j = 1728). *)
Theorem C40_honest_refuted : ~ forall K (HG : good (fpar K)), rand_ok (fpar K) ->
  forall junk a tp0 sec t0 fuel olds tps tps2 prf fuel' tp tps3 b,
  let OW := word_ops (fpar K) in
  elem_ok (fpar K) a -> Generate K OW junk a tp0 = Ok (Some sec, t0) -> Prove K OW fuel sec olds tps tps2 = Ok prf ->
  (forall i, digits 256 (tps i)) -> (forall i, digits 256 (tps2 i)) -> (forall i, length (olds i) = union_size K /\ digits 256 (olds i)) ->
  Verify K OW junk fuel' prf tp tps3 = Ok b -> b = true.
Proof. exact honest_refused. Qed.
Print Assumptions C40_honest_refuted.

(** The same for the command line tools: what prove writes, with anything after it, makes verify succeed and print the two packed end points
    of a walk of degree 2^(e2 width) from the given curve. *)
Theorem C40_pipeline_partial : forall K (HG : good (fpar K)), rand_ok (fpar K) -> strat_good (fpar K) ->
  exps32 (fpar K) -> let SS := maximalP (fpar K) HG in
  let OW := word_ops (fpar K) in
  forall junk junk' args stdin fuel tp0 olds tps tps2 text, (0 < hide_bytes K)%nat -> (0 < hash_bytes K)%nat ->
  main_prove K OW junk args stdin true (fun _ => None) fuel tp0 olds tps tps2 = Ok (0, text) ->
  (forall i, digits 256 (tps i)) -> (forall i, digits 256 (tps2 i)) -> (forall i, length (olds i) = union_size K /\ digits 256 (olds i)) ->
  (forall a sec t0 i v c t, read_start K args stdin = Ok (Some a) -> Generate K OW junk a tp0 = Ok (Some sec, t0) -> (i < reps K)%nat ->
     Instance K OW sec (tps i) = Ok (v, c, t) -> plain K HG (i_left _ v) /\ plain K HG (i_right _ v)) ->
  exists a A1, read_start K args stdin = Ok (Some a) /\ SS (valueP (fpar K) HG a) /\ SS A1 /\
  (exists top, path2 (movedP (fpar K) HG) (e2 (fpar K)) (valueP (fpar K) HG a) None top A1 /\ length top = width K) /\
  let e0 := encodeP (fpar K) HG (fst (fst (canonicalP (fpar K) HG (valueP (fpar K) HG a)))) in
  let e1 := encodeP (fpar K) HG (fst (fst (canonicalP (fpar K) HG A1))) in
  (exists rest, text = fp2_text K e0 ++ fp2_text K e1 ++ rest) /\
  forall prf0 suffix fuel' tp tps3 r, wf_proof K prf0 ->
  main_verify K OW junk' prf0 (text ++ suffix) true (fun _ => None) fuel' tp tps3 = Ok r -> r = (0, fp2_text K e0 ++ fp2_text K e1).
Proof. exact (fun K HG HR HS small junk junk' args stdin fuel tp0 olds tps tps2 text H1 H2 => pipeline K HG HR HS _ (max_class _ HG) small (max_cert _ HG)
  junk junk' args stdin fuel tp0 olds tps tps2 text H1 H2 (max_kill _ HG)). Qed.
Print Assumptions C40_pipeline_partial.

(** The refused run: the j-invariants of the left chain; the response is a left one. *)
Example C40_example : option_map (fun s => fst (fst (fst s))) square_two =
    Some [[15; 129; 44; 213; 174; 161]; [192; 6; 0; 0; 0; 0]; [235; 28; 68; 34; 194; 131]] /\ 6 * 256 + 192 = 1728 /\ map r_tag (p_resp prf_two) = [-1].
Proof. rewrite square_two_ok. split; [reflexivity|]. split; reflexivity. Qed.

(** * C54: the proofs that Prove makes are well-formed *)
Theorem C54_shape : forall K (HG : good (fpar K)), rand_ok (fpar K) -> strat_good (fpar K) ->
  exps32 (fpar K) -> let SS := maximalP (fpar K) HG in
  let OW := word_ops (fpar K) in let value := valueP (fpar K) HG in
  forall junk a tp0 sec t0 fuel olds tps tps2 prf, elem_ok (fpar K) a ->
  Generate K OW junk a tp0 = Ok (Some sec, t0) -> Prove K OW fuel sec olds tps tps2 = Ok prf ->
  (forall i, digits 256 (tps i)) -> (forall i, digits 256 (tps2 i)) -> (forall i, length (olds i) = union_size K /\ digits 256 (olds i)) ->
  wf_proof K prf /\ legal_tags prf /\
  p_E0 prf = encodeP (fpar K) HG (fst (fst (canonicalP (fpar K) HG (value a)))) /\
  p_E1 prf = encodeP (fpar K) HG (fst (fst (canonicalP (fpar K) HG (value (nth (width K) (sE sec) []))))) /\
  SS (value a) /\ SS (value (nth (width K) (sE sec) [])).
Proof. exact (fun K HG HR HS small => Prove_word_shape K HG HR HS _ (max_class _ HG) small (max_cert _ HG)). Qed.
Print Assumptions C54_shape.
(** The second curve of an honest proof is already packed: prove started from it prints it again. *)
Theorem C54_end : forall K (HG : good (fpar K)), rand_ok (fpar K) -> strat_good (fpar K) ->
  exps32 (fpar K) ->
  let OW := word_ops (fpar K) in
  forall junk a tp0 sec t0 fuel olds tps tps2 prf, elem_ok (fpar K) a ->
  Generate K OW junk a tp0 = Ok (Some sec, t0) -> Prove K OW fuel sec olds tps tps2 = Ok prf ->
  pack_curve OW (unpack_curve OW (p_E1 prf)) = Ok (p_E1 prf).
Proof. exact (fun K HG HR HS small => honest_end_word K HG HR HS _ (max_class _ HG) small (max_cert _ HG)). Qed.
Print Assumptions C54_end.
Example C54_example : forall junk,
  Generate K_two (word_ops Ptoy2) junk start_two gen_tape_two = Ok (Some sec_two, skipn 88 gen_tape_two) /\
  Prove K_two (word_ops Ptoy2) 5 sec_two olds_two inst_tape_two (fun _ => []) = Ok prf_two /\ wf_proof K_two prf_two.
Proof. intros junk. exact (conj (two_gen junk) (conj two_prove wf_prf_two)). Qed.

(** * C55: the square of an instance commutes, and the commitments are to its lower corners *)
Theorem C55_square : forall K (HG : good (fpar K)), rand_ok (fpar K) -> strat_good (fpar K) ->
  exps32 (fpar K) -> let SS := maximalP (fpar K) HG in
  let OW := word_ops (fpar K) in let value := valueP (fpar K) HG in
  forall junk a tp0 sec t0 tp v c t, elem_ok (fpar K) a ->
  Generate K OW junk a tp0 = Ok (Some sec, t0) -> digits 256 tp -> Instance K OW sec tp = Ok (v, c, t) ->
  let A0 := value a in let A1 := value (nth (width K) (sE sec) []) in
  let A2 := coef (fpar K) HG (i_E2 _ v) in let A3 := coef (fpar K) HG (i_E3 _ v) in
  let other := movedP (fpar K) HG in let n := e2 (fpar K) in let m := e3 (fpar K) in
  SS A0 /\ SS A1 /\ SS A2 /\ SS A3 /\
  (exists top, path2 other n A0 None top A1 /\ length top = width K) /\
  (exists lft, path3 m A0 None lft A2 /\ length lft = height K /\ holds K HG (i_left _ v) lft) /\
  (exists bot, path2 other n A2 None bot A3 /\ length bot = width K /\ holds K HG (i_bottom _ v) bot) /\
  (exists rgt, path3 m A1 None rgt A3 /\ length rgt = height K /\ holds K HG (i_right _ v) rgt) /\
  length (i_r2 _ v) = hide_bytes K /\ length (i_r3 _ v) = hide_bytes K /\
  c = (commit (encodeP (fpar K) HG) K (i_r2 _ v) A2, commit (encodeP (fpar K) HG) K (i_r3 _ v) A3).
Proof. exact (fun K HG HR HS small => Instance_word K HG HR HS _ (max_class _ HG) small (max_cert _ HG)). Qed.
Print Assumptions C55_square.
(** An instance: the j-invariants along the left, the bottom and the right chain. *)
Example C55_example : option_map fst square_two = Some
  ([[15; 129; 44; 213; 174; 161]; [192; 6; 0; 0; 0; 0]; [235; 28; 68; 34; 194; 131]],
   [[235; 28; 68; 34; 194; 131]; [166; 75; 97; 137; 12; 16]],
   [[59; 139; 152; 179; 83; 71]; [138; 137; 6; 222; 49; 4]; [166; 75; 97; 137; 12; 16]]).
Proof. rewrite square_two_ok. reflexivity. Qed.
