(** Theorems about the ephemeral key exchange and the key encapsulation with the tables of the code (properties.jsonl C49). *)
From Bignums Require Import BigZ.
From Verif Require Import Base BaseP Digits Out Params Fp FpInst Keccak Ops Ec Sidh Sike SikeP WordOps CurveSpec XSpec FldCurve Strategy XIsog BasisP SidhP WordCurve WordIsog WordSidh Gens GensP GensInst Toy ZOps PropIsog.

(** The generator tables: points P_A, Q_A generating the 2^e2-torsion of y^2 = x^3 + 6x^2 + x, and P_B, Q_B generating the
    3^e3-torsion; the tables are the x-coordinates of P, Q and P - Q, and (0,0) is a multiple of Q_A. *)
Theorem C49_tables : forall P, In P configurations -> exists HG : FpInst.good P, torsion_gens P HG (genA P) (genB P).
Proof. exact gens_configurations. Qed.
Print Assumptions C49_tables.

(** C49: for every configuration and every pair of private keys, all of them, both parties finish and compute the same
    shared secret. *)
Theorem C49_sidh : forall P, In P configurations -> forall skA skB differ square,
  length skA = skA_bytes P -> length skB = skB_bytes P -> exists pkA pkB s,
  EphemeralKeyGeneration_A (word_ops P) P (genA P) (genB P) skA = Ok pkA /\
  EphemeralKeyGeneration_B (word_ops P) P (genA P) (genB P) skB = Ok pkB /\
  EphemeralSecretAgreement_A (word_ops P) P skA pkB = Ok s /\
  EphemeralSecretAgreement_B (word_ops P) P differ square skB pkA = Ok (Some s) /\
  length pkA = pk_bytes P /\ length pkB = pk_bytes P /\ length s = ss_bytes P /\ digits 256 pkA /\ digits 256 pkB /\ digits 256 s.
Proof. exact sidh_configurations. Qed.
Print Assumptions C49_sidh.

(** C49: the same for any prime and any generators as in C49_tables. *)
Theorem C49_sidh_any_tables : forall P HG, strat_good P -> forall gA gB, torsion_gens P HG gA gB -> forall skA skB differ square,
  length skA = skA_bytes P -> length skB = skB_bytes P -> exists pkA pkB s,
  EphemeralKeyGeneration_A (word_ops P) P gA gB skA = Ok pkA /\ EphemeralKeyGeneration_B (word_ops P) P gA gB skB = Ok pkB /\
  EphemeralSecretAgreement_A (word_ops P) P skA pkB = Ok s /\ EphemeralSecretAgreement_B (word_ops P) P differ square skB pkA = Ok (Some s) /\
  length pkA = pk_bytes P /\ length pkB = pk_bytes P /\ length s = ss_bytes P /\ digits 256 pkA /\ digits 256 pkB /\ digits 256 s.
Proof. exact sidh_agree_word. Qed.
Print Assumptions C49_sidh_any_tables.

(** C48 and C49: the key encapsulation of every configuration, for every sequence of random bytes. *)
Theorem C49_sike : forall P, In P configurations -> forall differ square ssb maskA maskB tp tp1 temp, let msgb := msg_bytes P in
  digits 256 tp -> digits 256 tp1 -> (msgb + skB_bytes P <= length tp)%nat -> (msgb <= length tp1)%nat -> length temp = msgb -> digits 256 temp ->
  let kgA := EphemeralKeyGeneration_A (word_ops P) P (genA P) (genB P) in let kgB := EphemeralKeyGeneration_B (word_ops P) P (genA P) (genB P) in
  let agB b pk := EphemeralSecretAgreement_B_extended (word_ops P) P differ square b pk true in
  exists pk sk ct ss tp' tp1', crypto_kem_keypair msgb (skB_bytes P) maskB kgB tp = Ok (pk, sk, tp') /\
    crypto_kem_enc msgb (skA_bytes P) ssb maskA kgA (EphemeralSecretAgreement_A (word_ops P) P) pk tp1 = Ok (ct, ss, tp1') /\
    (not_rejected msgb (skB_bytes P) (pk_bytes P) agB sk ct ->
     crypto_kem_dec msgb (skA_bytes P) (skB_bytes P) (pk_bytes P) ssb maskA kgA agB ct sk temp = Ok ss).
Proof. exact sike_configurations. Qed.
Print Assumptions C49_sike.

(** The toy parameter set (p = 2^17 * 3^4 - 1) with its own generators: the premises of C49_sidh_any_tables hold, and a run. *)
Section Example.
Let toy_Agen : list Z := [23423; 60; 18711; 42; 17910; 98; 57944; 37; 40688; 108; 18723; 126].
Let toy_Bgen : list Z := [4561; 133; 36807; 59; 51930; 11; 58154; 53; 11793; 127; 43546; 96].
Let dtoyA : gdata := mkGd (9563565%bigZ, 2684062%bigZ) (2319236%bigZ, 5750053%bigZ) (2905352%bigZ, 2481497%bigZ) (4637830%bigZ, 3524524%bigZ) (6150268%bigZ, 3012598%bigZ).
Let dtoyB : gdata := mkGd (2935289%bigZ, 10457676%bigZ) (8798953%bigZ, 5627140%bigZ) (3898334%bigZ, 7995329%bigZ) (7242334%bigZ, 5098281%bigZ) (1627967%bigZ, 6835859%bigZ).
Let gA := init_basis Ptoy2 toy_Agen. Let gB := init_basis Ptoy2 toy_Bgen.
Example C49_toy : strat_good Ptoy2 /\ torsion_gens Ptoy2 good_toy2 gA gB.
Proof.
  split; [exact C28_toy|]. apply (gens_sound Ptoy2 good_toy2 bptoy2) with (dA := dtoyA) (dB := dtoyB); try (vm_compute; reflexivity).
Qed.
(** A run on pairs of integers modulo p (ZOps.v). *)
Let OZ := z_ops Ptoy2.
Let zA : gens OZ := @mkGens OZ (9563565, 2684062) (2905352, 2481497) (6150268, 3012598).
Let zB : gens OZ := @mkGens OZ (2935289, 10457676) (3898334, 7995329) (1627967, 6835859).
Let pkA := [1; 177; 51; 96; 5; 135; 75; 225; 157; 207; 17; 115; 242; 241; 119; 209; 4; 48].
Let pkB := [119; 229; 25; 144; 219; 40; 252; 93; 52; 91; 204; 157; 170; 124; 84; 37; 53; 146].
Let no (x y : zelt) := false.
Example C49_example :
  EphemeralKeyGeneration_A OZ Ptoy2 zA zB [57; 48; 1] = Ok pkA /\ EphemeralKeyGeneration_B OZ Ptoy2 zA zB [42] = Ok pkB /\
  EphemeralSecretAgreement_A OZ Ptoy2 [57; 48; 1] pkB = Ok [98; 103; 18; 209; 115; 8] /\
  EphemeralSecretAgreement_B OZ Ptoy2 no None [42] pkA = Ok (Some [98; 103; 18; 209; 115; 8]) /\
  skA_bytes Ptoy2 = 3%nat /\ skB_bytes Ptoy2 = 1%nat.
Proof. repeat split; vm_compute; reflexivity. Qed.
End Example.
