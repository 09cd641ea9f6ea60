(** Property theorems C65: the x86-64 build of p434 gives the results of the portable build. *)
From Verif Require Import Base BaseP Digits Out Params Fp Wf FpMisc FpMiscP FpInst Poik Hashing Codec CodecSpec Ops Ec Models Proto Sidh WordOps FieldOps WordSim ProtoSpec WordSidh
  Asm AsmP434 X64 X64P X64Q.

Local Notation P := (P434 T64).
(** [x64_ops] (X64.v): every addition, subtraction, multiplication and squaring is a run of the x86-64 code, and inversion, square root,
    comparison and conversion are built on these as in fpx.c and poik.c.  [word_ops P] are the digit arrays of the portable code.
    The products of the two builds need not be the same words: the x86-64 product is only known to be below 2p with the right residue. *)

(** * C65: all programs *)
Theorem C65_Verify : forall K, fpar K = P -> forall junk junk' fuel p tp tps, wf_proof K p ->
  Verify K x64_ops junk fuel p tp tps = Verify K (word_ops P) junk' fuel p tp tps.
Proof. exact Verify_x. Qed.
Print Assumptions C65_Verify.
Theorem C65_Generate : forall K, fpar K = P -> forall junk junk' E tp, elem_ok P E ->
  Generate K x64_ops junk E tp = Generate K (word_ops P) junk' E tp.
Proof. exact Generate_x. Qed.
Print Assumptions C65_Generate.
Theorem C65_Prove : forall K, fpar K = P -> forall fuel sec olds tps tps2,
  Forall (elem_ok P) (sE sec) -> Forall (elem_ok P) (sP sec) -> (width K < length (sE sec))%nat ->
  Prove K x64_ops fuel sec olds tps tps2 = Prove K (word_ops P) fuel sec olds tps tps2.
Proof. exact Prove_x. Qed.
Print Assumptions C65_Prove.

(** SIDH key generation and agreement (sidh.c).  [xg g] is the generator table g, as words of the x86-64 build. *)
Theorem C65_keygen : forall gA gB sk, grng P gA -> grng P gB ->
  EphemeralKeyGeneration_A x64_ops P (xg gA) (xg gB) sk = EphemeralKeyGeneration_A (word_ops P) P gA gB sk /\
  EphemeralKeyGeneration_B x64_ops P (xg gA) (xg gB) sk = EphemeralKeyGeneration_B (word_ops P) P gA gB sk.
Proof. exact keygen_x. Qed.
Print Assumptions C65_keygen.
Theorem C65_agree_A : forall sk pk, length pk = 330%nat -> digits 256 pk ->
  EphemeralSecretAgreement_A x64_ops P sk pk = EphemeralSecretAgreement_A (word_ops P) P sk pk.
Proof. exact agree_x. Qed.
Print Assumptions C65_agree_A.
Theorem C65_agree_B : forall differ differ' square square' sk pk, length pk = 330%nat -> digits 256 pk ->
  EphemeralSecretAgreement_B x64_ops P differ square sk pk = EphemeralSecretAgreement_B (word_ops P) P differ' square' sk pk.
Proof. exact agree_x_B. Qed.
Print Assumptions C65_agree_B.

(** i * i = -1 by the x86-64 code: decode the 110 bytes of i, multiply, encode; the result is the 110 bytes of p - 1. *)
Example C65_example :
  o_enc x64_ops (o_mul x64_ops (o_dec x64_ops (toB 256 55 0 ++ toB 256 55 1)) (o_dec x64_ops (toB 256 55 0 ++ toB 256 55 1))) =
    toB 256 55 (2 ^ 216 * 3 ^ 137 - 2) ++ toB 256 55 0 /\ fpar (K434 T64) = P.
Proof. split; [exact i_squared|reflexivity]. Qed.
