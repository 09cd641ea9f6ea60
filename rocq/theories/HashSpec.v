(** Specification of the trit stream and of well-formed commitments. *)
From Verif Require Import Base Params Poik Hashing.

(** Specification: five balanced ternary digits of an accepted byte, least significant first. *)
Definition trit (d : Z) : Z := if d =? 2 then -1 else d.
Definition trits5 (v : Z) : list Z :=
  [trit (v mod 3); trit (v / 3 mod 3); trit (v / 9 mod 3); trit (v / 27 mod 3); trit (v / 81 mod 3)].
Definition trits_of (v : Z) : list Z := if v <? 243 then trits5 v else [].
Definition trit_stream (bytes : list Z) : list Z := flat_map trits_of bytes.

(** The sizes of struct commitment (poik.c:41-48). *)
Definition wf_comm (K : pok) (c : commitment) : Prop :=
  length (c_j0 c) = sidh_bytes K /\ length (c_j1 c) = sidh_bytes K /\ length (c_hs c) = reps K /\
  Forall (fun h => length (fst h) = hash_bytes K /\ length (snd h) = hash_bytes K) (c_hs c).
