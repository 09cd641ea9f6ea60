(** Property theorems C70: the x86-64 build of p503 gives the results of the portable build. *)
From Verif Require Import Base BaseP Digits Out Params Fp Wf FpMisc FpMiscP FpInst Poik Hashing Codec CodecSpec Ops Ec Models Proto Sidh WordOps FieldOps WordSim ProtoSpec WordSidh
  Asm AsmP503 X64 X503 X503P X503Q.

Local Notation P := (P503 T64).
(** [x503_ops] (X503.v): every addition, subtraction, multiplication and squaring is a run of the x86-64 code, and inversion, square root,
    comparison and conversion are built on these as in fpx.c and poik.c.  [word_ops P] are the digit arrays of the portable code.
    The products of the two builds need not be the same words: the x86-64 product is only known to be below 2p with the right residue. *)

(** * C70: all programs *)
Theorem C70_Verify : forall K, fpar K = P -> forall junk junk' fuel p tp tps, wf_proof K p ->
  Verify K x503_ops junk fuel p tp tps = Verify K (word_ops P) junk' fuel p tp tps.
Proof. exact Verify_x5. Qed.
Print Assumptions C70_Verify.
Theorem C70_Generate : forall K, fpar K = P -> forall junk junk' E tp, elem_ok P E ->
  Generate K x503_ops junk E tp = Generate K (word_ops P) junk' E tp.
Proof. exact Generate_x5. Qed.
Print Assumptions C70_Generate.
Theorem C70_Prove : forall K, fpar K = P -> forall fuel sec olds tps tps2,
  Forall (elem_ok P) (sE sec) -> Forall (elem_ok P) (sP sec) -> (width K < length (sE sec))%nat ->
  Prove K x503_ops fuel sec olds tps tps2 = Prove K (word_ops P) fuel sec olds tps tps2.
Proof. exact Prove_x5. Qed.
Print Assumptions C70_Prove.

(** SIDH key generation and agreement (sidh.c).  [xg5 g] is the generator table g, as words of the x86-64 build. *)
Theorem C70_keygen : forall gA gB sk, grng P gA -> grng P gB ->
  EphemeralKeyGeneration_A x503_ops P (xg5 gA) (xg5 gB) sk = EphemeralKeyGeneration_A (word_ops P) P gA gB sk /\
  EphemeralKeyGeneration_B x503_ops P (xg5 gA) (xg5 gB) sk = EphemeralKeyGeneration_B (word_ops P) P gA gB sk.
Proof. exact keygen_x5. Qed.
Print Assumptions C70_keygen.
Theorem C70_agree_A : forall sk pk, length pk = 378%nat -> digits 256 pk ->
  EphemeralSecretAgreement_A x503_ops P sk pk = EphemeralSecretAgreement_A (word_ops P) P sk pk.
Proof. exact agree_x5. Qed.
Print Assumptions C70_agree_A.
Theorem C70_agree_B : forall differ differ' square square' sk pk, length pk = 378%nat -> digits 256 pk ->
  EphemeralSecretAgreement_B x503_ops P differ square sk pk = EphemeralSecretAgreement_B (word_ops P) P differ' square' sk pk.
Proof. exact agree_x_B5. Qed.
Print Assumptions C70_agree_B.

(** i * i = -1 by the x86-64 code: decode the 126 bytes of i, multiply, encode; the result is the 126 bytes of p - 1. *)
Example C70_example :
  o_enc x503_ops (o_mul x503_ops (o_dec x503_ops (toB 256 63 0 ++ toB 256 63 1)) (o_dec x503_ops (toB 256 63 0 ++ toB 256 63 1))) =
    toB 256 63 (2 ^ 250 * 3 ^ 159 - 2) ++ toB 256 63 0 /\ fpar (K503 T64) = P.
Proof. split; [exact i_squared5|reflexivity]. Qed.
