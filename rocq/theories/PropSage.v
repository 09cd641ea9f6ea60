(** Property theorems C45 and C52: the Sage verifier's hashing compared with the C code, and its missing
    length checks. *)
From Verif Require Import Base BaseP Out Params Wf Fp Fld FpRep FpInst Poik Keccak SpongeP Hashing HashSpec Sage SageP.

(** * C45 *)
(** The two sides pack field elements identically. *)
Theorem C45_pack : forall t K, In K [K434 t; K503 t; K610 t; K751 t] -> forall a,
  let P := fpar K in
  ok P (fst a) -> ok P (snd a) -> valB (2 ^ radix P) (fst a) <= 255 * par_p P -> valB (2 ^ radix P) (snd a) <= 255 * par_p P ->
  fp2_encode P a = sage_pack (par_p P) (fval (toF P (fst a)), fval (toF P (snd a))).
Proof. exact pack_same. Qed.
Print Assumptions C45_pack.

(** Same challenge from the same transcript, every parameter set. *)
Theorem C45_challenge : forall K fuel c buffer r, length buffer = reps K -> digits 256 (challenge_input c) -> length (c_hs c) = reps K ->
  Challenge K fuel c buffer = Ok r <-> sage_challenge (fuel * 136) (c_j0 c) (c_j1 c) (c_hs c) = Ok r.
Proof. exact same_challenge. Qed.
Print Assumptions C45_challenge.

(** Same commitment hashes for p434 and p503. *)
Theorem C45_commit_434_503 : forall t K r v, In K [K434 t; K503 t] -> sage_hash_hiding r v = hash_hiding K r v.
Proof. exact same_hash_434_503. Qed.
Print Assumptions C45_commit_434_503.

(** For p610 and p751 no commitment hash agrees: the property is false there. *)
Theorem C45_commit_610_751_refuted : forall t K r v, In K [K610 t; K751 t] -> digits 256 r -> digits 256 v ->
  sage_hash_hiding r v <> hash_hiding K r v.
Proof. exact different_hash_610_751. Qed.
Print Assumptions C45_commit_610_751_refuted.

Example C45_example : sage_challenge 8 [1] [2] [([3], [4]); ([5], [6])] = Ok [1; 0] /\
  sage_pack 251 (7, 300) = [7; 44].
Proof. vm_compute. split; reflexivity. Qed.

(** * C52: the Sage verifier accepts hashes of any length, so one string can be cut into hash pairs in
    many ways.  Whoever knows a chain from E0, a chain from E1 and an unrelated E2 -> E3 chain can build the
    string [transcript] and, whenever its challenge begins with 1 and ends with -1, complete it to an accepted proof.
    No isogeny between E0 and E1 occurs. *)
Theorem C52_sage_lengths_refuted : forall (C : Type) (jpack : C -> list Z) (chainA chainB : C -> list C -> option (list Z))
    (w h : nat) (E0 E1 E2 : C) (cl cr cb : list C) (nonce j2l j3r j3b : list Z),
  nonce <> [] ->
  chainB E0 cl = Some j2l -> length cl = h ->
  chainB E1 cr = Some j3r -> length cr = h ->
  chainA E2 cb = Some j3b -> length cb = w ->
  forall fuel reps c,
  sage_trits reps [] (shake256 fuel ([1] ++ jpack E0 ++ jpack E1 ++ transcript jpack E2 nonce j2l j3r j3b reps)) = Ok c ->
  hd 0 c = 1 -> last c 0 = -1 ->
  exists rs, length rs = reps /\ map sage_tag rs = c /\ Forall (sage_readable w h) rs /\
    sage_verify jpack chainA chainB fuel E0 E1 c rs = Ok true.
Proof. exact (@forgery). Qed.
Print Assumptions C52_sage_lengths_refuted.

(** A forged two-repetition proof over a toy chain function: E0 = 10 and E1 = 20 have nothing in common.
    The honest Right response would carry a 32-byte h2, here it has one byte. *)
Example C52_example :
  let j := toB 256 2 in let ch := fun E c => Some (j (fold_right Z.add E c)) in
  let s := transcript j 30 [2] (j 11) (j 22) (j 33) 2 in
  sage_verify j ch ch 8 10 20 [1; -1] [SRight [0] [2] [2]; SLeft [2] (skipn 65 s) [1]] = Ok true /\ length s = 780%nat.
Proof. vm_compute. split; reflexivity. Qed.
