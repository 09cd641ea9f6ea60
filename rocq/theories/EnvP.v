(** Proofs about random.c and render_progress. *)
From Verif Require Import Base BaseP Out Poik Env.

Definition data (dev : device) : list Z := flat_map (fun e => match e with Some d => d | None => [] end) dev.

Lemma blit_ok w d rest : (length d <= length rest)%nat -> blit (length w) d (w ++ rest) = Ok ((w ++ d) ++ skipn (length d) rest).
Proof.
  intros H. unfold blit. rewrite app_length. destruct (Nat.leb_spec (length w + length d) (length w + length rest)); [|lia].
  rewrite firstn_app, firstn_all, Nat.sub_diag, firstn_O, app_nil_r, skipn_app.
  rewrite skipn_all2 by lia. replace (length w + length d - length w)%nat with (length d) by lia. now rewrite app_nil_l, app_assoc.
Qed.
Lemma rb_loop_ok dev : forall n w rest, 0 <= n -> length rest = Z.to_nat n ->
  rb_loop dev n (length w) (w ++ rest) =
  if (Z.to_nat n <=? length (data dev))%nat then Ok (w ++ firstn (Z.to_nat n) (data dev)) else NoFuel.
Proof.
  induction dev as [|e dev IH]; intros n w rest Hn L.
  - cbn [rb_loop data flat_map length]. destruct (Z.gtb_spec n 0).
    + destruct (Nat.leb_spec (Z.to_nat n) 0); [lia|reflexivity].
    + replace n with 0 in * by lia. destruct rest; [|cbn in L; lia]. reflexivity.
  - cbn [rb_loop]. destruct (Z.gtb_spec n 0) as [P|P].
    + destruct e as [d|]; [|cbn [data flat_map]; rewrite app_nil_l; now apply IH].
      set (r := firstn (Z.to_nat n) d).
      assert (Lr : length r = Nat.min (Z.to_nat n) (length d)) by apply firstn_length.
      rewrite blit_ok by lia. cbn [bind].
      rewrite <- app_length.
      rewrite IH; [|lia|rewrite skipn_length; lia].
      change (data (Some d :: dev)) with (d ++ data dev). rewrite app_length.
      replace (Z.to_nat (n - Z.of_nat (length r))) with (Z.to_nat n - length r)%nat by lia.
      destruct (Nat.leb_spec (Z.to_nat n - length r) (length (data dev))), (Nat.leb_spec (Z.to_nat n) (length d + length (data dev))); try lia; [|reflexivity].
      f_equal. rewrite <- app_assoc. f_equal. rewrite firstn_app. fold r. f_equal.
      destruct (Nat.le_ge_cases (Z.to_nat n) (length d)).
      * replace (Z.to_nat n - length r)%nat with 0%nat by lia. replace (Z.to_nat n - length d)%nat with 0%nat by lia. reflexivity.
      * f_equal. lia.
    + replace n with 0 in * by lia. destruct rest; [|cbn in L; lia]. cbn. now rewrite app_nil_r.
Qed.
Lemma to_int_small z : 0 <= z < 2 ^ 31 -> to_int z = z.
Proof. intros H. unfold to_int. rewrite Z.mod_small by lia. destruct (Z.ltb_spec z (2 ^ 31)); lia. Qed.
Lemma to_int_neg z : 2 ^ 31 <= z < 2 ^ 32 -> to_int z <= 0.
Proof. intros H. unfold to_int. rewrite Z.mod_small by lia. destruct (Z.ltb_spec z (2 ^ 31)); lia. Qed.
Lemma randombytes_ok dev nbytes buf : 0 <= nbytes < 2 ^ 31 -> length buf = Z.to_nat nbytes ->
  randombytes dev nbytes buf = if (Z.to_nat nbytes <=? length (data dev))%nat then Ok (firstn (Z.to_nat nbytes) (data dev)) else NoFuel.
Proof. intros H L. unfold randombytes. rewrite to_int_small by lia. apply (rb_loop_ok dev nbytes [] buf); lia. Qed.
Lemma randombytes_large dev nbytes buf : 2 ^ 31 <= nbytes < 2 ^ 32 -> randombytes dev nbytes buf = Ok buf.
Proof. intros H. unfold randombytes. pose proof (to_int_neg _ H). destruct dev; cbn [rb_loop]; destruct (Z.gtb_spec (to_int nbytes) 0); auto; lia. Qed.
Lemma randombytes_eof k nbytes buf : 0 < nbytes < 2 ^ 31 -> length buf = Z.to_nat nbytes ->
  randombytes (repeat (Some []) k) nbytes buf = NoFuel.
Proof.
  intros H L. rewrite randombytes_ok by lia.
  replace (data (repeat (Some []) k)) with (@nil Z) by (induction k; cbn; auto). cbn [length].
  destruct (Nat.leb_spec (Z.to_nat nbytes) 0); [lia|reflexivity].
Qed.

Lemma progress_range K idx : (0 < reps K)%nat -> Z.of_nat (reps K) < 2 ^ 50 -> 0 <= idx <= Z.of_nat (reps K) ->
  progress_done K idx = 63 * idx / Z.of_nat (reps K) /\ 0 <= progress_done K idx <= 63.
Proof.
  intros R B H. unfold progress_done. rewrite (Z.mod_small (63 * idx)) by lia.
  assert (0 <= 63 * idx / Z.of_nat (reps K) <= 63).
  { split; [apply Z.div_pos; lia|]. apply Z.div_le_upper_bound; lia. }
  rewrite Z.mod_small by lia. auto.
Qed.
Lemma memset_dots : memset 46 64 (repeat 0 65) = Ok (repeat 46 64 ++ [0]).
Proof. reflexivity. Qed.
Lemma repeat_skip {A} (x : A) k n : skipn k (repeat x n) = repeat x (n - k).
Proof. revert n. induction k as [|k IH]; intros [|n]; cbn; auto. Qed.
Lemma upd_app {A} (a b : list A) x y : upd (length a) x (a ++ y :: b) = a ++ x :: b.
Proof. induction a; cbn; congruence. Qed.
Lemma render_ok K idx last : (0 < reps K)%nat -> Z.of_nat (reps K) < 2 ^ 50 -> 0 <= idx <= Z.of_nat (reps K) ->
  let k := Z.to_nat (63 * idx / Z.of_nat (reps K)) in
  (k <= 63)%nat /\
  render_progress K idx last = Ok (if 63 * idx / Z.of_nat (reps K) =? last then (last, None)
     else (63 * idx / Z.of_nat (reps K), Some (repeat 61 k ++ [62] ++ repeat 46 (63 - k) ++ [0]))).
Proof.
  intros R B H. destruct (progress_range K idx R B H) as [E P]. unfold render_progress. rewrite E in *.
  set (d := 63 * idx / Z.of_nat (reps K)) in *. cbn zeta. split; [lia|]. destruct (d =? last); [reflexivity|].
  rewrite memset_dots. cbn [bind]. unfold memset. rewrite app_length, repeat_length. cbn [length].
  destruct (Z.leb_spec d (Z.of_nat (64 + 1))); [|lia]. cbn [bind].
  rewrite skipn_app, repeat_skip, repeat_length.
  replace (64 - Z.to_nat d)%nat with (S (63 - Z.to_nat d)) by lia.
  replace (Z.to_nat d - 64)%nat with 0%nat by lia. cbn [skipn repeat app].
  unfold store. rewrite app_length, repeat_length.
  destruct (Nat.ltb_spec (Z.to_nat d) (Z.to_nat d + length (46 :: repeat 46 (63 - Z.to_nat d) ++ [0]))) as [X|X]; [|cbn [length] in X; lia].
  cbn [bind]. repeat f_equal.
  rewrite <- (repeat_length 61 (Z.to_nat d)) at 1. apply upd_app.
Qed.
