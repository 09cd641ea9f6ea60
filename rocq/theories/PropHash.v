(** Property theorems C10 - C14, C38: Keccak, SHAKE256, challenge sampling, hash inputs, counts. *)
From Verif Require Import Base BaseP Out Params Poik Keccak KeccakSpec KeccakP SpongeP Hashing HashSpec HashingP ParamP.

(** * C10: the unrolled permutation is Keccak-f[1600] (KeccakSpec.v) on every state *)
Theorem C10_keccak_f : forall s, length s = 25%nat -> Forall (fun w => 0 <= w < 2 ^ 64) s ->
  length (KeccakF1600_StatePermute s) = 25%nat /\
  Forall (fun w => 0 <= w < 2 ^ 64) (KeccakF1600_StatePermute s) /\
  bits_of_words (KeccakF1600_StatePermute s) = keccak_f1600 (bits_of_words s).
Proof. exact keccak_f_thm. Qed.
Print Assumptions C10_keccak_f.

(** Lane x + 5 y, bit z is the bit 64 (x + 5 y) + z of the state string, and nothing else: *)
Theorem C10_bits_of_words_meaning : forall s i z, (i < length s)%nat -> (z < 64)%nat ->
  length (bits_of_words s) = (64 * length s)%nat /\
  nth (64 * i + z) (bits_of_words s) false = Z.testbit (nth i s 0) (Z.of_nat z).
Proof. exact bits_of_words_thm. Qed.
Print Assumptions C10_bits_of_words_meaning.

Example C10_example : nth 0 (KeccakF1600_StatePermute (repeat 0 25)) 0 = 0xF1258F7940E1DDE7 /\
  nth 24 (KeccakF1600_StatePermute (repeat 0 25)) 0 = 0xEAF1FF7B5CECA249.
Proof. vm_compute. split; reflexivity. Qed.

(** * C11: SHAKE256 *)
Theorem C11_shake256 : forall outlen input, digits 256 input ->
  digits 256 (shake256 outlen input) /\ length (shake256 outlen input) = outlen /\
  bits_of_bytes (shake256 outlen input) = SHAKE256 (bits_of_bytes input) (8 * outlen).
Proof. exact shake256_ok. Qed.
Print Assumptions C11_shake256.

(** The bit string determines the bytes, so the previous theorem pins the output down. *)
Theorem C11_bytes_determined : forall a b, digits 256 a -> digits 256 b -> bits_of_bytes a = bits_of_bytes b -> a = b.
Proof. exact bytes_inj. Qed.
Print Assumptions C11_bytes_determined.

Theorem C11_prefix : forall input a b, digits 256 input -> (a <= b)%nat ->
  shake256 a input = firstn a (shake256 b input).
Proof. exact shake256_prefix. Qed.
Print Assumptions C11_prefix.

Theorem C11_blockwise : forall input n, digits 256 input ->
  fst (shake256_squeezeblocks n (shake256_absorb (repeat 0 25) input)) = shake256 (n * 136) input.
Proof. exact shake256_stream. Qed.
Print Assumptions C11_blockwise.

Theorem C11_incremental : forall a b s,
  shake256_squeezeblocks (a + b) s =
  let (h, s1) := shake256_squeezeblocks a s in
  let (h', s2) := shake256_squeezeblocks b s1 in (h ++ h', s2).
Proof. exact (squeeze_split SHAKE256_RATE). Qed.
Print Assumptions C11_incremental.

(** "abc" and a message longer than one block, expected values from an independent implementation *)
Example C11_example : firstn 8 (shake256 32 [97; 98; 99]) = [72; 51; 102; 96; 19; 96; 168; 119] /\
  firstn 8 (shake256 300 (repeat 7 135)) = [166; 55; 252; 83; 129; 92; 119; 126] /\ skipn 292 (shake256 300 (repeat 7 136)) = [234; 81; 165; 59; 10; 8; 38; 35].
Proof. vm_compute. repeat split. Qed.

(** * C13: sample_ternary *)
(** For every buffer with room for num trits: no out-of-bounds write, the trits written are the first
    num trits of the stream, the count is exact, and the rest of the buffer is untouched. *)
Theorem C13_sample_ternary : forall bytes buffer num, (num <= length buffer)%nat ->
  exists written, sample_ternary bytes buffer num = Ok (length written, written ++ skipn (length written) buffer) /\
    written = firstn num (trit_stream bytes) /\ (length written <= num)%nat /\
    Forall (fun t => In t [-1; 0; 1]) written.
Proof. exact sample_ternary_thm. Qed.
Print Assumptions C13_sample_ternary.

Theorem C13_bijection : forall a b c d e, Forall (fun t => In t [-1; 0; 1]) [a; b; c; d; e] ->
  exists v, (0 <= v < 256 /\ trits_of v = [a; b; c; d; e]) /\
    forall v', 0 <= v' < 256 -> trits_of v' = [a; b; c; d; e] -> v' = v.
Proof. exact trits_bijection. Qed.
Print Assumptions C13_bijection.

Theorem C13_accept : forall v, 0 <= v < 256 -> length (trits_of v) = if v <? 243 then 5%nat else 0%nat.
Proof. exact trits_of_length. Qed.
Print Assumptions C13_accept.

Example C13_example : sample_ternary [250; 100; 243; 242] [9; 9; 9; 9; 9; 9; 9; 9] 7 =
  Ok (7%nat, [1; 0; -1; 0; 1; -1; -1; 9]) /\
  sample_ternary [250; 100] [9; 9; 9; 9; 9; 9] 6 = Ok (5%nat, [1; 0; -1; 0; 1; 9]).
Proof. vm_compute. split; reflexivity. Qed.

(** * C12: Challenge = first POIK_REPS trits of the stream, never undefined behaviour *)
Theorem C12_challenge : forall K fuel c buffer r, length buffer = reps K -> digits 256 (challenge_input c) ->
  Challenge K fuel c buffer = Ok r <->
  (let t := trit_stream (shake256 (fuel * 136) (1 :: comm_bytes c)) in
   (reps K <= length t)%nat /\ r = firstn (reps K) t).
Proof. exact challenge_thm. Qed.
Print Assumptions C12_challenge.

Theorem C12_challenge_total : forall K fuel c buffer, length buffer = reps K -> digits 256 (challenge_input c) ->
  Challenge K fuel c buffer = NoFuel \/ exists r, Challenge K fuel c buffer = Ok r /\ length r = reps K /\
    Forall (fun t => In t [-1; 0; 1]) r.
Proof. exact challenge_total. Qed.
Print Assumptions C12_challenge_total.

(** Any prefix of the hash stream that holds enough trits, cut anywhere, gives the same challenge. *)
Theorem C12_no_block_influence : forall K fuel c buffer r n, length buffer = reps K -> digits 256 (challenge_input c) ->
  Challenge K fuel c buffer = Ok r ->
  (reps K <= length (trit_stream (shake256 n (1%Z :: comm_bytes c))))%nat ->
  r = firstn (reps K) (trit_stream (shake256 n (1 :: comm_bytes c))).
Proof. exact challenge_prefix. Qed.
Print Assumptions C12_no_block_influence.

Example C12_example :
  let K := mkPok (P434 T64) 12 4 7 4 8 in
  let c := mkComm (repeat 11 110) (repeat 12 110) (repeat (repeat 3 4, repeat 4 4) 12) in
  wf_comm K c /\ Challenge K 1 c (repeat 9 12) = Ok [0; 0; 0; 1; 0; 1; 1; -1; 0; 0; -1; 1].
Proof.
  split; [|vm_compute; reflexivity].
  split; [reflexivity|]. split; [reflexivity|]. split; [reflexivity|]. cbn [c_hs]. apply Forall_forall.
  intros h Hh. apply repeat_spec in Hh. subst. split; reflexivity.
Qed.

(** * C14 *)
Theorem C14_domain_separation : forall r v c, hash_hiding_input r v <> challenge_input c.
Proof. exact domain_separated. Qed.
Print Assumptions C14_domain_separation.

Theorem C14_commit_input_injective : forall K r v r' v',
  length r = hide_bytes K -> length r' = hide_bytes K -> hash_hiding_input r v = hash_hiding_input r' v' ->
  r = r' /\ v = v'.
Proof. exact (fun K r v r' v' H H' => hiding_input_inj r v r' v' (eq_trans H (eq_sym H'))). Qed.
Print Assumptions C14_commit_input_injective.

Theorem C14_challenge_input_injective : forall K c d, wf_comm K c -> wf_comm K d ->
  challenge_input c = challenge_input d -> c = d.
Proof. exact challenge_input_inj. Qed.
Print Assumptions C14_challenge_input_injective.

(** Two different openings of one commitment hash are a SHAKE256 collision. *)
Theorem C14_collision : forall K r v r' v', length r = hide_bytes K -> length r' = hide_bytes K ->
  hash_hiding K r v = hash_hiding K r' v' ->
  (r = r' /\ v = v') \/ exists m m', m <> m' /\ shake256 (hash_bytes K) m = shake256 (hash_bytes K) m'.
Proof. exact hiding_collision. Qed.
Print Assumptions C14_collision.

Example C14_example : hash_hiding_input [1; 2] [3] = [2; 1; 2; 3] /\ challenge_input (mkComm [7] [8] [([9], [10])]) = [1; 7; 8; 9; 10].
Proof. split; reflexivity. Qed.

(** * C38: repetition counts: (2/3)^reps <= 2^-lambda, least such count, hash lengths *)
Theorem C38_counts : forall t K lambda, In (K, lambda) [(K434 t, 128); (K503 t, 128); (K610 t, 192); (K751 t, 256)] ->
  let n := Z.of_nat (reps K) in
  2 ^ n * 2 ^ lambda <= 3 ^ n /\ 3 ^ (n - 1) < 2 ^ (n - 1) * 2 ^ lambda /\
  2 * lambda <= 8 * Z.of_nat (hash_bytes K) /\ 4 * lambda <= 8 * Z.of_nat (hide_bytes K).
Proof. exact counts_ok. Qed.
Print Assumptions C38_counts.
