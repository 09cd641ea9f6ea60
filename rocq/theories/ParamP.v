(** Restatements used by PropHash.v (proofs only). *)
From Verif Require Import Base BaseP Out Params Poik Keccak KeccakSpec KeccakP SpongeP Hashing HashSpec HashingP.

Lemma keccak_f_thm s : length s = 25%nat -> Forall (fun w => 0 <= w < 2 ^ 64) s ->
  length (KeccakF1600_StatePermute s) = 25%nat /\
  Forall (fun w => 0 <= w < 2 ^ 64) (KeccakF1600_StatePermute s) /\
  bits_of_words (KeccakF1600_StatePermute s) = keccak_f1600 (bits_of_words s).
Proof. intros L W. destruct (permute_ok s (conj L W)) as [[L1 W1] E]. auto. Qed.
Lemma bits_of_words_thm s i z : (i < length s)%nat -> (z < 64)%nat ->
  length (bits_of_words s) = (64 * length s)%nat /\
  nth (64 * i + z) (bits_of_words s) false = Z.testbit (nth i s 0) (Z.of_nat z).
Proof.
  intros Hi Hz. split; [apply bits_of_words_length|]. rewrite nth_bits by auto.
  now rewrite (proj2 (Nat.ltb_lt i (length s)) Hi).
Qed.
Lemma trit_stream_range l : Forall (fun t => In t [-1; 0; 1]) (trit_stream l).
Proof.
  apply Forall_forall. intros t (v & _ & H)%in_flat_map. now apply trits_of_range in H.
Qed.
Lemma Forall_firstn {A} (P : A -> Prop) n l : Forall P l -> Forall P (firstn n l).
Proof. intros H. rewrite <- (firstn_skipn n l) in H. now apply Forall_app in H. Qed.
Lemma sample_ternary_thm bytes buffer num : (num <= length buffer)%nat ->
  exists written, sample_ternary bytes buffer num = Ok (length written, written ++ skipn (length written) buffer) /\
    written = firstn num (trit_stream bytes) /\ (length written <= num)%nat /\
    Forall (fun t => In t [-1; 0; 1]) written.
Proof.
  intros H. exists (firstn num (trit_stream bytes)). rewrite sample_ternary_ok by auto.
  split; auto. split; auto. split; [rewrite firstn_length; lia|]. apply Forall_firstn, trit_stream_range.
Qed.
Lemma trits_bijection a b c d e : Forall (fun t => In t [-1; 0; 1]) [a; b; c; d; e] ->
  exists v, (0 <= v < 256 /\ trits_of v = [a; b; c; d; e]) /\
    forall v', 0 <= v' < 256 -> trits_of v' = [a; b; c; d; e] -> v' = v.
Proof.
  intros H. repeat match goal with H : Forall _ (_ :: _) |- _ => inversion H; clear H; subst end.
  destruct (trits5_surj a b c d e) as (v & Hv & E); auto. exists v. unfold trits_of.
  rewrite (proj2 (Z.ltb_lt v 243)) by lia. split; [split; [lia|auto]|].
  intros v' Hv' E'. destruct (Z.ltb_spec v' 243); [|discriminate]. apply trits5_inj; auto; try lia. congruence.
Qed.
Lemma trits_of_length v : 0 <= v < 256 -> length (trits_of v) = if v <? 243 then 5%nat else 0%nat.
Proof. intros _. unfold trits_of. now destruct (v <? 243). Qed.

Lemma challenge_thm K fuel c buffer r : length buffer = reps K -> digits 256 (challenge_input c) ->
  Challenge K fuel c buffer = Ok r <->
  (let t := trit_stream (shake256 (fuel * 136) (1 :: comm_bytes c)) in
   (reps K <= length t)%nat /\ r = firstn (reps K) t).
Proof.
  intros L D. rewrite challenge_ok by auto. change (challenge_input c) with (1 :: comm_bytes c).
  set (t := trit_stream _). cbv zeta.
  rewrite firstn_length. destruct (Nat.eqb_spec (Nat.min (reps K) (length t)) (reps K)).
  - split; [intros [= <-]; split; auto; lia|intros [_ ->]; reflexivity].
  - split; [discriminate|intros [H _]; lia].
Qed.
Lemma challenge_total K fuel c buffer : length buffer = reps K -> digits 256 (challenge_input c) ->
  Challenge K fuel c buffer = NoFuel \/ exists r, Challenge K fuel c buffer = Ok r /\ length r = reps K /\
    Forall (fun t => In t [-1; 0; 1]) r.
Proof.
  intros L D. rewrite challenge_ok by auto. set (t := firstn _ _).
  destruct (Nat.eqb_spec (length t) (reps K)); [right|left; auto]. exists t. split; auto. split; auto.
  apply Forall_firstn, trit_stream_range.
Qed.
Lemma trit_stream_firstn a b l : (b <= a)%nat -> exists l', trit_stream (firstn a l) = trit_stream (firstn b l) ++ l'.
Proof.
  intros H. exists (trit_stream (skipn b (firstn a l))). rewrite <- trit_stream_app. f_equal.
  replace (firstn b l) with (firstn b (firstn a l)) by (rewrite firstn_firstn; f_equal; lia).
  symmetry. apply firstn_skipn.
Qed.
Lemma challenge_prefix K fuel c buffer r n : length buffer = reps K -> digits 256 (challenge_input c) ->
  Challenge K fuel c buffer = Ok r ->
  (reps K <= length (trit_stream (shake256 n (1%Z :: comm_bytes c))))%nat ->
  r = firstn (reps K) (trit_stream (shake256 n (1 :: comm_bytes c))).
Proof.
  intros L D E Hn. apply challenge_thm in E as [Ht ->]; auto. change (challenge_input c) with (1 :: comm_bytes c) in D.
  set (m := (fuel * 136)%nat) in *.
  set (ST := shake256 (Nat.max n m) (1 :: comm_bytes c)).
  assert (En : shake256 n (1 :: comm_bytes c) = firstn n ST) by (apply shake256_prefix; auto; lia).
  assert (Em : shake256 m (1 :: comm_bytes c) = firstn m ST) by (apply shake256_prefix; auto; lia).
  rewrite En, Em in *.
  destruct (Nat.le_ge_cases n m) as [H|H].
  - destruct (trit_stream_firstn m n ST H) as [l' ->]. rewrite firstn_app.
    replace (reps K - _)%nat with 0%nat by lia. now rewrite firstn_O, app_nil_r.
  - destruct (trit_stream_firstn n m ST H) as [l' ->]. rewrite firstn_app.
    replace (reps K - _)%nat with 0%nat by lia. now rewrite firstn_O, app_nil_r.
Qed.
Lemma hiding_collision K r v r' v' : length r = hide_bytes K -> length r' = hide_bytes K ->
  hash_hiding K r v = hash_hiding K r' v' ->
  (r = r' /\ v = v') \/ exists m m', m <> m' /\ shake256 (hash_bytes K) m = shake256 (hash_bytes K) m'.
Proof.
  intros L L' E. destruct (list_eq_dec Z.eq_dec (hash_hiding_input r v) (hash_hiding_input r' v')) as [H|H].
  - left. apply hiding_input_inj in H; auto. congruence.
  - right. eauto.
Qed.
Lemma counts_ok t K lambda : In (K, lambda) [(K434 t, 128); (K503 t, 128); (K610 t, 192); (K751 t, 256)] ->
  let n := Z.of_nat (reps K) in
  2 ^ n * 2 ^ lambda <= 3 ^ n /\ 3 ^ (n - 1) < 2 ^ (n - 1) * 2 ^ lambda /\
  2 * lambda <= 8 * Z.of_nat (hash_bytes K) /\ 4 * lambda <= 8 * Z.of_nat (hide_bytes K).
Proof.
  cbn [In]. intros [[= <- <-]|[[= <- <-]|[[= <- <-]|[[= <- <-]|[]]]]]; vm_compute; repeat split; congruence.
Qed.
