(** Model of the hashing parts of S/poik.c: sample_ternary, hash_hiding, Challenge. *)
From Verif Require Import Base Out Params Poik Keccak.

(** poik.c:235-239, inner loop of sample_ternary (k = iterations left) *)
Fixpoint st_inner (k : nat) (v : Z) (done num : nat) (trits : list Z) : out (nat * list Z) :=
  match k with
  | O => Ok (done, trits)
  | S k' =>
      if (done <? num)%nat then
        let r := v mod 3 in
        do trits <- store done (if r >? 1 then r - 3 else r) trits;;
        st_inner k' (v / 3) (S done) num trits
      else Ok (done, trits)
  end.
(** poik.c:229-241, outer loop; returns the count and the buffer.  [bytes] is bytes+idx. *)
Fixpoint st_outer (bytes : list Z) (done num : nat) (trits : list Z) : out (nat * list Z) :=
  if (done <? num)%nat then
    match bytes with
    | [] => Ok (done, trits)
    | v :: bytes =>
        if v >=? 243 then st_outer bytes done num trits
        else do (done, trits) <- st_inner 5 v done num trits;; st_outer bytes done num trits
    end
  else Ok (num, trits).
(** poik.c:227-242 *)
Definition sample_ternary (bytes : list Z) (trits : list Z) (num_trits : nat) : out (nat * list Z) :=
  st_outer bytes 0 num_trits trits.

(** poik.c:36-37 *)
Definition RO_CHALLENGE : list Z := [1].
Definition RO_COMMIT : list Z := [2].

(** poik.c:1093-1100 *)
Definition hash_hiding_input (r v : list Z) : list Z := RO_COMMIT ++ r ++ v.
Definition hash_hiding (K : pok) (r v : list Z) : list Z := shake256 (hash_bytes K) (hash_hiding_input r v).

(** poik.c:41-48, struct commitment (packed) and its bytes *)
Record commitment := mkComm { c_j0 : list Z; c_j1 : list Z; c_hs : list (list Z * list Z) }.
Definition comm_bytes (c : commitment) : list Z :=
  c_j0 c ++ c_j1 c ++ flat_map (fun h => fst h ++ snd h) (c_hs c).
Definition challenge_input (c : commitment) : list Z := RO_CHALLENGE ++ comm_bytes c.

(** poik.c:1164-1168, the loop of Challenge.  [fuel] bounds the number of squeezed blocks; the C loop
    has no bound. *)
Fixpoint ch_loop (reps fuel done : nat) (state : list Z) (challs : list Z) : out (list Z) :=
  if (done <? reps)%nat then
    match fuel with
    | O => NoFuel
    | S fuel =>
        let (blk, state) := shake256_squeezeblocks 1 state in
        do (n, rest) <- sample_ternary blk (skipn done challs) (reps - done);;
        ch_loop reps fuel (done + n) state (firstn done challs ++ rest)
    end
  else Ok challs.
(** poik.c:1154-1169; [challs] is the caller's (uninitialised) array of POIK_REPS entries *)
Definition Challenge (K : pok) (fuel : nat) (comm : commitment) (challs : list Z) : out (list Z) :=
  ch_loop (reps K) fuel 0 (shake256_absorb (repeat 0 25) (challenge_input comm)) challs.
