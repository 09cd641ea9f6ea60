(** Permutation and sponge against FIPS 202 (proofs only). *)
From Verif Require Import Base BaseP Keccak KeccakSpec KeccakP.
Set Bullet Behavior "Strict Subproofs".

Definition words (s : list Z) : Prop := length s = 25%nat /\ Forall word s.

Lemma list25 (s : list Z) : length s = 25%nat ->
  s = map (fun i => nth i s 0) (seq 0 25).
Proof.
  intros L. apply nth_ext with (d := 0) (d' := 0); [now rewrite map_length, seq_length|].
  intros i Hi. rewrite (nth_indep (map _ _) 0 (nth 0 s 0)) by (rewrite map_length, seq_length; lia).
  rewrite (map_nth (fun i => nth i s 0)), seq_nth by lia. reflexivity.
Qed.

Lemma flat_map_length {A B} (f : A -> list B) c l : (forall x, length (f x) = c) -> length (flat_map f l) = (c * length l)%nat.
Proof. intros H. induction l; cbn [flat_map length]; [lia|]. rewrite app_length, H, IHl. lia. Qed.
Lemma of_fun_nth A x y z : (x < 5)%nat -> (y < 5)%nat -> (z < 64)%nat ->
  sget (of_fun A) x y z = A x y z.
Proof.
  intros Hx Hy Hz. unfold sget, of_fun.
  assert (N : forall f l i z, (z < 64)%nat -> (i < length l)%nat ->
    nth (64 * i + z) (flat_map (fun x : nat => map (f x) (seq 0 64)) l) false = f (nth i l 0%nat) z).
  { clear. intros f l. induction l as [|a l IH]; intros i z Hz Hi; cbn [length] in Hi; [lia|].
    cbn [flat_map]. assert (L : length (map (f a) (seq 0 64)) = 64%nat) by now rewrite map_length.
    destruct i as [|i].
    - rewrite app_nth1 by (rewrite L; lia). rewrite Nat.mul_0_r, Nat.add_0_l.
      rewrite (nth_indep _ false (f a 0%nat)) by (rewrite L; lia). rewrite map_nth, seq_nth by lia. reflexivity.
    - rewrite app_nth2 by (rewrite L; lia). rewrite L. replace (64 * S i + z - 64)%nat with (64 * i + z)%nat by lia.
      rewrite IH by lia. reflexivity. }
  assert (L320 : forall y, length (flat_map (fun x => map (A x y) (seq 0 64)) (seq 0 5)) = 320%nat).
  { intros. rewrite (flat_map_length _ 64); [reflexivity|]. intros x'. now rewrite map_length, seq_length. }
  assert (N2 : forall l i k, (k < 320)%nat -> (i < length l)%nat ->
    nth (320 * i + k) (flat_map (fun y => flat_map (fun x => map (A x y) (seq 0 64)) (seq 0 5)) l) false =
    nth k (flat_map (fun x => map (A x (nth i l 0%nat)) (seq 0 64)) (seq 0 5)) false).
  { intros l. induction l as [|a l IH]; intros i k Hk Hi; cbn [length] in Hi; [lia|].
    cbn [flat_map]. destruct i as [|i].
    - rewrite app_nth1 by (rewrite L320; lia). rewrite Nat.mul_0_r. reflexivity.
    - rewrite app_nth2 by (rewrite L320; lia). rewrite L320. replace (320 * S i + k - 320)%nat with (320 * i + k)%nat by lia.
      rewrite IH by lia. reflexivity. }
  replace (64 * (5 * y + x) + z)%nat with (320 * y + (64 * x + z))%nat by lia.
  rewrite N2 by (rewrite ?seq_length; lia). rewrite N with (f := fun x => A x (nth y (seq 0 5) 0%nat)) by (rewrite ?seq_length; lia).
  rewrite !seq_nth by lia. reflexivity.
Qed.
Lemma of_fun_length A : length (of_fun A) = 1600%nat.
Proof.
  unfold of_fun. rewrite (flat_map_length _ 320); [reflexivity|].
  intros y. rewrite (flat_map_length _ 64); [reflexivity|]. intros x. now rewrite map_length, seq_length.
Qed.
Lemma sget_eq S T : length S = 1600%nat -> length T = 1600%nat ->
  (forall x y z, (x < 5)%nat -> (y < 5)%nat -> (z < 64)%nat -> sget S x y z = sget T x y z) -> S = T.
Proof.
  intros LS LT H. apply nth_ext with (d := false) (d' := false); [lia|]. intros i Hi. rewrite LS in Hi.
  set (k := (i / 64)%nat).
  assert (E : i = (64 * (5 * (k / 5) + k mod 5) + i mod 64)%nat).
  { pose proof (Nat.div_mod i 64 ltac:(lia)). pose proof (Nat.div_mod k 5 ltac:(lia)). fold k in H0. lia. }
  assert (k < 25)%nat by (apply Nat.div_lt_upper_bound; lia).
  specialize (H (k mod 5) (k / 5) (i mod 64))%nat. unfold sget in H. rewrite <- E in H. apply H.
  - apply Nat.mod_upper_bound. lia.
  - apply Nat.div_lt_upper_bound; lia.
  - apply Nat.mod_upper_bound. lia.
Qed.

Lemma rc_check : forallb (fun ir => (0 <=? nth ir KeccakF_RoundConstants 0) && (nth ir KeccakF_RoundConstants 0 <? 2 ^ 64) &&
  forallb (fun z => Bool.eqb (Z.testbit (nth ir KeccakF_RoundConstants 0) (Z.of_nat z)) (RC ir z)) (seq 0 64)) (seq 0 24) = true.
Proof. vm_compute. reflexivity. Qed.
Lemma rc_br ir : (ir < 24)%nat -> br (nth ir KeccakF_RoundConstants 0) (RC ir).
Proof.
  intros H. pose proof rc_check as C. rewrite forallb_forall in C. specialize (C ir).
  rewrite in_seq in C. specialize (C ltac:(lia)). apply andb_prop in C as [C1 C2]. apply andb_prop in C1 as [C0 C1].
  split; [split; [now apply Z.leb_le|now apply Z.ltb_lt]|]. intros z Hz.
  rewrite forallb_forall in C2. specialize (C2 z). rewrite in_seq in C2. apply Bool.eqb_prop, C2. lia.
Qed.

Lemma words_br s x y : words s -> (x < 5)%nat -> (y < 5)%nat -> br (nth (5 * y + x) s 0) (sget (bits_of_words s) x y).
Proof.
  intros [L W] Hx Hy. split.
  - rewrite Forall_forall in W. apply W, nth_In. lia.
  - intros z Hz. rewrite sget_bits by lia. reflexivity.
Qed.
Lemma round_lanes rcv ir s x y : words s -> br rcv (RC ir) -> (x < 5)%nat -> (y < 5)%nat ->
  br (nth (5 * y + x) (round_A_E rcv s) 0) (iota ir (chi (pi (rho (theta (sget (bits_of_words s)))))) x y).
Proof.
  intros HW Hrc Hx Hy.
  pose proof (fun x y => words_br s x y HW) as B. destruct HW as [L W].
  set (A := sget (bits_of_words s)) in *. clearbody A.
  rewrite (list25 s L). 
  apply (lane_br (nth 0 s 0) (nth 1 s 0) (nth 2 s 0) (nth 3 s 0) (nth 4 s 0) (nth 5 s 0) (nth 6 s 0) (nth 7 s 0)
    (nth 8 s 0) (nth 9 s 0) (nth 10 s 0) (nth 11 s 0) (nth 12 s 0) (nth 13 s 0) (nth 14 s 0) (nth 15 s 0) (nth 16 s 0)
    (nth 17 s 0) (nth 18 s 0) (nth 19 s 0) (nth 20 s 0) (nth 21 s 0) (nth 22 s 0) (nth 23 s 0) (nth 24 s 0)); auto;
  match goal with |- br (nth ?i s 0) (A ?x ?y) => apply (B x y); lia end.
Qed.
Lemma round_length rcv s : length (round_A_E rcv s) = 25%nat. Proof. reflexivity. Qed.
Lemma round_ok rcv ir s : words s -> br rcv (RC ir) ->
  words (round_A_E rcv s) /\ bits_of_words (round_A_E rcv s) = Rnd (bits_of_words s) ir.
Proof.
  intros HW Hrc. pose proof (fun x y => round_lanes rcv ir s x y HW Hrc) as RL.
  pose proof (round_length rcv s) as L. set (t := round_A_E rcv s) in *. clearbody t.
  assert (WT : words t).
  { split; auto. apply Forall_forall. intros w Hw. apply (In_nth _ _ 0) in Hw as (i & Hi & <-).
    rewrite L in Hi. specialize (RL (i mod 5) (i / 5))%nat.
    rewrite <- (Nat.div_mod i 5) in RL by lia. apply RL; [apply Nat.mod_upper_bound; lia|apply Nat.div_lt_upper_bound; lia]. }
  split; auto. apply sget_eq.
  - rewrite bits_of_words_length, L. reflexivity.
  - apply of_fun_length.
  - intros x y z Hx Hy Hz. unfold Rnd. rewrite of_fun_nth by auto.
    destruct (RL x y Hx Hy) as [_ B]. rewrite <- B by auto. apply sget_bits; [auto|]. destruct WT. lia.
Qed.
Lemma body_ok ir s : words s -> (ir + 1 < 24)%nat ->
  let t := permute_body (nth ir KeccakF_RoundConstants 0) (nth (ir + 1) KeccakF_RoundConstants 0) s in
  words t /\ bits_of_words t = Rnd (Rnd (bits_of_words s) ir) (ir + 1).
Proof.
  intros HW H t. unfold t, permute_body. rewrite round_same.
  destruct (round_ok _ ir s HW (rc_br ir ltac:(lia))) as [W1 E1].
  destruct (round_ok _ (ir + 1)%nat _ W1 (rc_br (ir + 1) ltac:(lia))) as [W2 E2].
  split; auto. rewrite E2, E1. reflexivity.
Qed.
Lemma permute_ok s : words s ->
  words (KeccakF1600_StatePermute s) /\ bits_of_words (KeccakF1600_StatePermute s) = keccak_f1600 (bits_of_words s).
Proof.
  intros HW. unfold KeccakF1600_StatePermute, keccak_f1600.
  assert (G : forall l k s, words s -> l = seq k (length l) -> (k + length l <= 12)%nat ->
    words (fold_left (fun s round => permute_body (nth round KeccakF_RoundConstants 0) (nth (round + 1) KeccakF_RoundConstants 0) s)
            (map (Nat.mul 2) l) s) /\
    bits_of_words (fold_left (fun s round => permute_body (nth round KeccakF_RoundConstants 0) (nth (round + 1) KeccakF_RoundConstants 0) s)
            (map (Nat.mul 2) l) s) = fold_left Rnd (seq (2 * k) (2 * length l)) (bits_of_words s)).
  { clear s HW. induction l as [|a l IH]; intros k s HW El Hk; [split; auto|].
    cbn [length seq] in El, Hk. injection El as -> El.
    cbn [map fold_left]. destruct (body_ok (2 * k) s HW ltac:(lia)) as [W1 E1].
    destruct (IH (S k) _ W1 El ltac:(lia)) as [W2 E2]. split; [exact W2|]. rewrite E2, E1.
    replace (2 * length (k :: l))%nat with (S (S (2 * length l))) by (cbn [length]; lia).
    cbn [seq fold_left]. replace (2 * S k)%nat with (S (S (2 * k))) by lia.
    replace (2 * k + 1)%nat with (S (2 * k)) by lia. reflexivity. }
  destruct (G (seq 0 12) 0%nat s HW eq_refl ltac:(cbn; lia)) as [W E]. split; [exact W|exact E].
Qed.

Opaque keccak_f1600.
(** ** Bytes and bits *)
Lemma bits_of_bytes_length l : length (bits_of_bytes l) = (8 * length l)%nat.
Proof.
  induction l as [|b l IH]; [reflexivity|]. unfold bits_of_bytes in *. cbn [flat_map length].
  rewrite app_length, IH. unfold bits_of_byte. rewrite map_length, seq_length. lia.
Qed.
Lemma bits_of_bytes_app a b : bits_of_bytes (a ++ b) = bits_of_bytes a ++ bits_of_bytes b.
Proof. apply flat_map_app. Qed.
Lemma nth_bytes l : forall i z, (z < 8)%nat ->
  nth (8 * i + z) (bits_of_bytes l) false = Z.testbit (nth i l 0) (Z.of_nat z).
Proof.
  induction l as [|w s IH]; intros i z Hz.
  - cbn [bits_of_bytes flat_map]. destruct i, (8 * _ + z)%nat; cbn [nth]; now rewrite Z.bits_0.
  - unfold bits_of_bytes. cbn [flat_map]. fold (bits_of_bytes s).
    assert (L : length (bits_of_byte w) = 8%nat) by (unfold bits_of_byte; now rewrite map_length).
    destruct i as [|i].
    + rewrite app_nth1 by (rewrite L; lia). rewrite Nat.mul_0_r, Nat.add_0_l.
      rewrite (nth_indep _ false (Z.testbit w (Z.of_nat 0))) by (rewrite L; lia). unfold bits_of_byte.
      rewrite (map_nth (fun i => Z.testbit w (Z.of_nat i))). rewrite seq_nth by lia. reflexivity.
    + rewrite app_nth2 by (rewrite L; lia). rewrite L. replace (8 * S i + z - 8)%nat with (8 * i + z)%nat by lia.
      rewrite IH by auto. reflexivity.
Qed.
Lemma byte_high b z : 0 <= b < 256 -> 8 <= z -> Z.testbit b z = false.
Proof.
  intros Hb Hz. destruct (Z.eq_dec b 0) as [->|]; [apply Z.bits_0|].
  apply Z.bits_above_log2; [lia|]. pose proof (proj1 (Z.log2_lt_pow2 b 8 ltac:(lia)) ltac:(lia)). lia.
Qed.
Lemma valB_bits l : digits 256 l -> forall i z, (z < 8)%nat ->
  Z.testbit (valB 256 l) (Z.of_nat (8 * i + z)) = Z.testbit (nth i l 0) (Z.of_nat z).
Proof.
  induction 1 as [|b l Hb H IH]; intros i z Hz.
  - cbn [valB]. rewrite Z.bits_0. destruct i; cbn [nth]; now rewrite Z.bits_0.
  - cbn [valB].
    assert (E : b + 256 * valB 256 l = Z.lor b (Z.shiftl (valB 256 l) 8)).
    { assert (L0 : Z.land b (Z.shiftl (valB 256 l) 8) = 0).
      { apply Z.bits_inj'. intros k Hk. rewrite Z.land_spec, Z.bits_0, Z.shiftl_spec by lia.
        destruct (Z.lt_ge_cases k 8).
        - rewrite (Z.testbit_neg_r _ (k - 8)) by lia. apply andb_false_r.
        - rewrite byte_high by (auto; lia). reflexivity. }
      rewrite <- Z.lxor_lor, <- Z.add_nocarry_lxor by exact L0. rewrite Z.shiftl_mul_pow2 by lia. lia. }
    rewrite E, Z.lor_spec, Z.shiftl_spec by lia. destruct i as [|i].
    + rewrite (Z.testbit_neg_r _ (Z.of_nat (8 * 0 + z) - 8)) by lia. rewrite orb_false_r. cbn [nth]. f_equal.
    + rewrite byte_high by (auto; lia). rewrite orb_false_l.
      replace (Z.of_nat (8 * S i + z) - 8) with (Z.of_nat (8 * i + z)) by lia. rewrite IH by auto. reflexivity.
Qed.
Lemma load64_word x : digits 256 x -> word (load64 x).
Proof.
  intros D. unfold word, load64. pose proof (valB_bound 256 (firstn 8 x) ltac:(lia) (digits_firstn _ _ _ D)) as B.
  rewrite firstn_length in B. assert (256 ^ Z.of_nat (Nat.min 8 (length x)) <= 256 ^ 8) by (apply Z.pow_le_mono_r; lia).
  change (2 ^ 64) with (256 ^ 8). lia.
Qed.
Lemma div8 z : (z = 8 * (z / 8) + z mod 8)%nat. Proof. apply Nat.div_mod. lia. Qed.
Lemma load64_bits x i : digits 256 x -> (i < 64)%nat ->
  Z.testbit (load64 x) (Z.of_nat i) = nth i (bits_of_bytes x) false.
Proof.
  intros D Hi. unfold load64. rewrite (div8 i).
  assert (i mod 8 < 8)%nat by (apply Nat.mod_upper_bound; lia).
  assert (i / 8 < 8)%nat by (apply Nat.div_lt_upper_bound; lia).
  rewrite valB_bits by (auto using digits_firstn). rewrite nth_bytes by auto. f_equal.
  rewrite <- (firstn_skipn 8 x) at 2.
  destruct (Nat.lt_ge_cases (length x) 8).
  - rewrite (skipn_all2 x) by lia. now rewrite app_nil_r.
  - rewrite app_nth1; [reflexivity|]. rewrite firstn_length. lia.
Qed.
Lemma store64_bits u : word u -> bits_of_bytes (store64 u) = bits_of_words [u].
Proof.
  intros Hu. unfold store64. apply nth_ext with (d := false) (d' := false).
  - rewrite bits_of_bytes_length, toB_length, bits_of_words_length. reflexivity.
  - intros i Hi. rewrite bits_of_bytes_length, toB_length in Hi.
    pose proof (nth_bits [u] 0 i ltac:(lia)) as N. cbn [nth length Nat.ltb Nat.leb Nat.mul Nat.add] in N. rewrite N.
    rewrite <- load64_bits; [|apply toB_digits; lia|lia]. f_equal. unfold load64.
    rewrite firstn_all2 by (rewrite toB_length; lia). rewrite valB_toB by lia. apply Z.mod_small. exact Hu.
Qed.
Lemma store64_digits u : digits 256 (store64 u). Proof. apply toB_digits. lia. Qed.

Lemma xor_block_gen m k : forall s, (k <= length s)%nat ->
  let t := fold_left (fun s i => upd i (Z.lxor (nth i s 0) (load64 (skipn (8 * i) m))) s) (seq 0 k) s in
  length t = length s /\
  forall i, nth i t 0 = if (i <? k)%nat then Z.lxor (nth i s 0) (load64 (skipn (8 * i) m)) else nth i s 0.
Proof.
  induction k as [|k IH]; intros s Hk; [split; auto|].
  rewrite seq_snoc. rewrite fold_left_app. cbn [fold_left]. rewrite Nat.add_0_l.
  destruct (IH s ltac:(lia)) as [L N]. set (t := fold_left _ (seq 0 k) s) in *. cbn zeta.
  split; [now rewrite upd_length|]. intros i. destruct (Nat.eq_dec i k) as [->|E].
  - rewrite nth_upd_same by lia. rewrite N. rewrite Nat.ltb_irrefl.
    now rewrite (proj2 (Nat.ltb_lt k (S k))) by lia.
  - rewrite nth_upd_other by auto. rewrite N.
    destruct (Nat.ltb_spec i k), (Nat.ltb_spec i (S k)); auto; lia.
Qed.
Lemma xorbits_length a b : length (xorbits a b) = Nat.min (length a) (length b).
Proof. revert b. induction a; destruct b; cbn; auto. Qed.
Lemma nth_xorbits a : forall b i, length a = length b -> nth i (xorbits a b) false = xorb (nth i a false) (nth i b false).
Proof. induction a; destruct b; intros i L; try discriminate; destruct i; cbn; auto. Qed.

Lemma skipn_bits k m : bits_of_bytes (skipn k m) = skipn (8 * k) (bits_of_bytes m).
Proof.
  revert m. induction k as [|k IH]; intros m; [reflexivity|].
  destruct m as [|b m]; [now rewrite !skipn_nil|]. cbn [skipn]. rewrite IH.
  replace (8 * S k)%nat with (8 + 8 * k)%nat by lia. unfold bits_of_bytes. cbn [flat_map]. reflexivity.
Qed.
Lemma firstn_bits k m : bits_of_bytes (firstn k m) = firstn (8 * k) (bits_of_bytes m).
Proof.
  revert m. induction k as [|k IH]; intros m; [reflexivity|].
  destruct m as [|b m]; [now rewrite !firstn_nil|]. cbn [firstn].
  replace (8 * S k)%nat with (8 + 8 * k)%nat by lia. unfold bits_of_bytes in *. cbn [flat_map]. rewrite IH. reflexivity.
Qed.
Lemma nth_skipn' {A} (l : list A) k i d : nth i (skipn k l) d = nth (k + i) l d.
Proof. revert l. induction k; intros l; [reflexivity|]. destruct l; cbn; auto. now destruct i. Qed.

Section Rate.
Variable r : nat.
Hypothesis R8 : exists q, r = (8 * q)%nat.
Hypothesis R0 : (0 < r <= 200)%nat.
Local Notation R := (8 * r)%nat.

Lemma xor_block_ok s m : words s -> digits 256 m -> (r <= length m)%nat ->
  words (xor_block r s m) /\
  bits_of_words (xor_block r s m) =
    xorbits (bits_of_words s) (firstn R (bits_of_bytes m) ++ repeat false (1600 - R)).
Proof.
  intros [L W] D Lm. destruct R8 as [q Eq].
  assert (Hq : (r / 8 = q)%nat) by (rewrite Eq, Nat.mul_comm; apply Nat.div_mul; lia).
  unfold xor_block. rewrite Hq. destruct (xor_block_gen m q s ltac:(lia)) as [L1 N1].
  set (t := fold_left _ (seq 0 q) s) in *. clearbody t.
  assert (WT : words t).
  { split; [lia|]. apply Forall_forall. intros w Hw. apply (In_nth _ _ 0) in Hw as (i & Hi & <-).
    rewrite Forall_forall in W. rewrite N1. assert (word (nth i s 0)) by (apply W, nth_In; lia).
    destruct (i <? q)%nat; auto. apply word_xor; auto. apply load64_word, digits_skipn, D. }
  split; auto.
  assert (LF : length (firstn R (bits_of_bytes m)) = R) by (rewrite firstn_length, bits_of_bytes_length; lia).
  assert (LP : length (firstn R (bits_of_bytes m) ++ repeat false (1600 - R)) = 1600%nat).
  { rewrite app_length, LF, repeat_length. lia. }
  apply nth_ext with (d := false) (d' := false).
  - rewrite xorbits_length, LP, !bits_of_words_length. lia.
  - intros i Hi. rewrite bits_of_words_length in Hi. rewrite nth_xorbits by (rewrite bits_of_words_length, LP; lia).
    rewrite (Nat.div_mod i 64) by lia. set (k := (i / 64)%nat). set (z := (i mod 64)%nat).
    assert (Hz : (z < 64)%nat) by (apply Nat.mod_upper_bound; lia).
    assert (Hk : (k < 25)%nat) by (apply Nat.div_lt_upper_bound; lia).
    rewrite !nth_bits by auto. rewrite !(proj2 (Nat.ltb_lt k _)) by lia. rewrite N1.
    destruct (Nat.ltb_spec k q) as [K|K].
    + rewrite Z.lxor_spec. f_equal. rewrite load64_bits by (auto using digits_skipn).
      rewrite skipn_bits, nth_skipn'. rewrite app_nth1 by lia.
      replace (8 * (8 * k) + z)%nat with (64 * k + z)%nat by lia.
      rewrite <- (firstn_skipn R (bits_of_bytes m)) at 1. rewrite app_nth1 by lia. reflexivity.
    + rewrite app_nth2 by lia. rewrite nth_repeat. now rewrite xorb_false_r.
Qed.

Definition suffix (p : list bool) (n : nat) : list bool := p ++ pad10star1 R (8 * n + length p).

Lemma suffix_mod p n : suffix p (n + r) = suffix p n.
Proof.
  unfold suffix, pad10star1. replace (8 * (n + r) + length p)%nat with (8 * n + length p + 1 * R)%nat by lia.
  rewrite Nat.mod_add by lia. reflexivity.
Qed.

Definition p1111 := [true; true; true; true].

Lemma last_block_ok m : digits 256 m -> (length m < r)%nat ->
  digits 256 (last_block r m 0x1F) /\ length (last_block r m 0x1F) = r /\
  bits_of_bytes (last_block r m 0x1F) = bits_of_bytes m ++ suffix p1111 (length m).
Proof.
  intros D L. unfold last_block.
  set (t0 := m ++ repeat 0 (r - length m)).
  assert (E1 : upd (length m) 0x1F t0 = m ++ 0x1F :: repeat 0 (r - length m - 1)).
  { unfold t0. rewrite upd_app_r by lia. rewrite Nat.sub_diag. f_equal.
    destruct (r - length m)%nat as [|k] eqn:E; [lia|]. cbn [repeat upd]. replace (S k - 1)%nat with k by lia. reflexivity. }
  rewrite E1.
  assert (P : forall j, (j = r - length m - 1)%nat ->
    suffix p1111 (length m) = [true; true; true; true; true; false; false] ++ repeat false (8 * j) ++ [true]).
  { intros j Hj. unfold suffix, pad10star1, p1111. cbn [length app].
    assert (Em : ((2 * R - 2 - (8 * length m + 4) mod R) mod R = 2 + 8 * j)%nat).
    { rewrite (Nat.mod_small (8 * length m + 4)) by lia.
      replace (2 * R - 2 - (8 * length m + 4))%nat with (2 + 8 * j + 1 * R)%nat by lia.
      rewrite Nat.mod_add by lia. apply Nat.mod_small. lia. }
    rewrite Em. reflexivity. }
  assert (Z0 : forall j, bits_of_bytes (repeat 0 j) = repeat false (8 * j)).
  { intros j. induction j as [|j IH]; [reflexivity|]. replace (8 * S j)%nat with (8 + 8 * j)%nat by lia.
    cbn [repeat]. unfold bits_of_bytes in *. cbn [flat_map]. rewrite IH. reflexivity. }
  destruct (r - length m - 1)%nat as [|j] eqn:Ej.
  - assert (r - 1 = length m)%nat by lia.
    assert (E2 : upd (r - 1) (Z.lor (nth (r - 1) (m ++ 0x1F :: repeat 0 0) 0) 128) (m ++ 0x1F :: repeat 0 0) = m ++ [0x9F]).
    { rewrite H. rewrite app_nth2 by lia. rewrite Nat.sub_diag. rewrite upd_app_r by lia. rewrite Nat.sub_diag. reflexivity. }
    rewrite E2. split; [apply digits_app; split; auto; constructor; [lia|constructor]|].
    split; [rewrite app_length; cbn; lia|]. rewrite bits_of_bytes_app. f_equal. rewrite (P 0%nat) by lia. reflexivity.
  - assert (E2 : upd (r - 1) (Z.lor (nth (r - 1) (m ++ 0x1F :: repeat 0 (S j)) 0) 128) (m ++ 0x1F :: repeat 0 (S j))
               = m ++ 0x1F :: repeat 0 j ++ [0x80]).
    { assert (R1 : repeat 0 (S j) = repeat 0 j ++ [0]) by (replace (S j) with (j + 1)%nat by lia; apply repeat_app).
      rewrite R1. rewrite app_comm_cons. rewrite app_assoc.
      assert (LL : length (m ++ 31 :: repeat 0 j) = (r - 1)%nat) by (rewrite app_length; cbn [length]; rewrite repeat_length; lia).
      rewrite app_nth2 by lia. rewrite LL, Nat.sub_diag. rewrite upd_app_r by lia. rewrite LL, Nat.sub_diag. cbn [nth upd].
      rewrite <- app_assoc. reflexivity. }
    rewrite E2. split; [|split].
    + apply digits_app; split; auto. constructor; [lia|]. apply digits_app. split; [apply digits_repeat0; lia|]. constructor; [lia|constructor].
    + rewrite app_length. cbn [length]. rewrite app_length, repeat_length. cbn [length]. lia.
    + rewrite bits_of_bytes_app. f_equal. rewrite (P (S j)) by lia.
      change (bits_of_bytes (31 :: repeat 0 j ++ [128])) with (bits_of_byte 31 ++ bits_of_bytes (repeat 0 j ++ [128])).
      rewrite bits_of_bytes_app, Z0. replace (8 * S j)%nat with (1 + 8 * j + 7)%nat by lia.
      rewrite !repeat_app. cbn [repeat]. change (bits_of_byte 31) with [true; true; true; true; true; false; false; false].
      change (bits_of_bytes [128]) with ([false; false; false; false; false; false; false; true]).
      rewrite <- !app_assoc. reflexivity.
Qed.

(** Absorbing: the code permutes before a block is squeezed, the specification after it is absorbed. *)

Lemma blocks_S n P : blocks R (S n) P = firstn R P :: blocks R n (skipn R P). Proof. reflexivity. Qed.

Definition step S Pi := keccak_f1600 (xorbits S (Pi ++ repeat false (1600 - R))).

Lemma suffix_len n : (n < r)%nat -> (8 * n + length (suffix p1111 n) = R)%nat.
Proof.
  intros L. unfold suffix, pad10star1, p1111. rewrite app_length. cbn [length]. rewrite app_length, repeat_length. cbn [length].
  rewrite (Nat.mod_small (8 * n + 4)) by lia.
  replace (2 * R - 2 - (8 * n + 4))%nat with (2 * R - 6 - 8 * n)%nat by lia.
  destruct (Nat.eq_dec n 0) as [->|].
  - replace (2 * R - 6 - 8 * 0)%nat with (R - 6 + 1 * R)%nat by lia. rewrite Nat.mod_add, Nat.mod_small by lia. lia.
  - replace (2 * R - 6 - 8 * n)%nat with (R - 6 - 8 * n + 1 * R)%nat by lia. rewrite Nat.mod_add, Nat.mod_small by lia. lia.
Qed.

Lemma absorb_ok fuel : forall s m, words s -> digits 256 m -> (length m <= fuel)%nat ->
  let (s', m') := absorb_loop fuel r s m in
  let t := xor_block r s' (last_block r m' 0x1F) in
  let P := bits_of_bytes m ++ suffix p1111 (length m) in
  words t /\ keccak_f1600 (bits_of_words t) = fold_left step (blocks R (length P / R) P) (bits_of_words s).
Proof.
  assert (Base : forall s m, words s -> digits 256 m -> (length m < r)%nat ->
    let t := xor_block r s (last_block r m 0x1F) in
    let P := bits_of_bytes m ++ suffix p1111 (length m) in
    words t /\ keccak_f1600 (bits_of_words t) = fold_left step (blocks R (length P / R) P) (bits_of_words s)).
  { intros s m HW D L t P. destruct (last_block_ok m D L) as (D1 & L1 & B1).
    destruct (xor_block_ok s (last_block r m 31) HW D1 ltac:(lia)) as [W1 X1]. fold t in W1, X1. split; auto.
    assert (LP : length P = R).
    { unfold P. rewrite app_length, bits_of_bytes_length. apply suffix_len. exact L. }
    rewrite LP, Nat.div_same by lia. cbn [blocks fold_left]. rewrite X1, B1. fold P.
    unfold step. reflexivity. }
  induction fuel as [|fuel IH]; intros s m HW D Lm.
  - cbn [absorb_loop]. apply Base; auto; lia.
  - cbn [absorb_loop]. destruct (Nat.ltb_spec (length m) r) as [L|L]; [apply Base; auto|].
    destruct (xor_block_ok s m HW D L) as [W1 X1]. destruct (permute_ok _ W1) as [W2 X2].
    assert (D2 := digits_skipn _ _ r D).
    assert (L2 : length (skipn r m) = (length m - r)%nat) by apply skipn_length.
    specialize (IH _ (skipn r m) W2 D2 ltac:(lia)).
    destruct (absorb_loop fuel r _ (skipn r m)) as [s' m'].
    set (t := xor_block r s' (last_block r m' 31)) in *. cbn zeta in IH |- *. destruct IH as [W3 IH]. split; auto.
    rewrite IH, X2, X1.
    set (P' := bits_of_bytes (skipn r m) ++ suffix p1111 (length (skipn r m))).
    set (P := bits_of_bytes m ++ suffix p1111 (length m)).
    assert (EP : P = firstn R (bits_of_bytes m) ++ P').
    { unfold P, P'. rewrite L2. replace (length m) with (length m - r + r)%nat at 1 by lia. rewrite suffix_mod.
      rewrite app_assoc. f_equal. rewrite skipn_bits. symmetry. apply firstn_skipn. }
    assert (LF : length (firstn R (bits_of_bytes m)) = R) by (rewrite firstn_length, bits_of_bytes_length; lia).
    rewrite EP. rewrite app_length, LF.
    replace (R + length P')%nat with (length P' + 1 * R)%nat by lia. rewrite Nat.div_add, Nat.add_1_r by lia.
    rewrite blocks_S. cbn [fold_left].
    rewrite firstn_app, LF, Nat.sub_diag, firstn_O, app_nil_r, firstn_firstn, Nat.min_id.
    rewrite skipn_app, LF, Nat.sub_diag, skipn_O. rewrite skipn_all2 by lia. cbn [app].
    reflexivity.
Qed.

Lemma keccak_absorb_ok m : digits 256 m ->
  let t := keccak_absorb (repeat 0 25) r m 0x1F in
  words t /\ keccak_f1600 (bits_of_words t) = absorb_bits keccak_f1600 R (bits_of_bytes m ++ p1111).
Proof.
  intros D t. unfold keccak_absorb in t.
  assert (W0 : words (repeat 0 25)).
  { split; [reflexivity|]. apply Forall_forall. intros x Hx. apply repeat_spec in Hx. subst. split; lia. }
  pose proof (absorb_ok (length m) _ m W0 D ltac:(lia)) as H.
  destruct (absorb_loop (length m) r (repeat 0 25) m) as [s' m']. fold t in H. destruct H as [W E]. split; auto.
  rewrite E. unfold absorb_bits.
  assert (EP : (bits_of_bytes m ++ p1111) ++ pad10star1 R (length (bits_of_bytes m ++ p1111)) =
               bits_of_bytes m ++ suffix p1111 (length m)).
  { unfold suffix. rewrite <- app_assoc, app_length, bits_of_bytes_length. reflexivity. }
  rewrite EP. change (bits_of_words (repeat 0 25)) with (repeat false 1600). reflexivity.
Qed.

Lemma flat_store l : Forall word l -> bits_of_bytes (flat_map store64 l) = bits_of_words l.
Proof.
  induction 1 as [|w l Hw H IH]; [reflexivity|]. cbn [flat_map]. rewrite bits_of_bytes_app, IH, store64_bits by auto.
  unfold bits_of_words. cbn [flat_map]. now rewrite app_nil_r.
Qed.
Lemma flat_store_digits l : digits 256 (flat_map store64 l).
Proof. induction l; cbn [flat_map]; [constructor|]. apply digits_app; auto using store64_digits. Qed.
Lemma flat_store_length l : length (flat_map store64 l) = (8 * length l)%nat.
Proof. induction l; cbn [flat_map length]; [reflexivity|]. rewrite app_length, IHl. unfold store64. rewrite toB_length. lia. Qed.
Lemma firstn_words k s : bits_of_words (firstn k s) = firstn (64 * k) (bits_of_words s).
Proof.
  revert s. induction k as [|k IH]; intros s; [reflexivity|]. destruct s as [|w s]; [now rewrite !firstn_nil|].
  cbn [firstn]. unfold bits_of_words in *. cbn [flat_map]. rewrite IH.
  replace (64 * S k)%nat with (64 + 64 * k)%nat by lia.
  rewrite firstn_app. rewrite (firstn_all2 (map _ (seq 0 64))) by (rewrite map_length, seq_length; lia).
  rewrite map_length, seq_length. f_equal. f_equal. lia.
Qed.

Lemma squeeze_ok n : forall s, words s ->
  let (h, s') := keccak_squeezeblocks n s r in
  words s' /\ digits 256 h /\ length h = (n * r)%nat /\
  bits_of_bytes h = squeeze_bits keccak_f1600 R n (keccak_f1600 (bits_of_words s)) /\
  keccak_f1600 (bits_of_words s') = Nat.iter n keccak_f1600 (keccak_f1600 (bits_of_words s)).
Proof.
  destruct R8 as [q Eq].
  assert (Hq : (r / 8 = q)%nat) by (rewrite Eq, Nat.mul_comm; apply Nat.div_mul; lia).
  induction n as [|n IH]; intros s HW.
  - cbn. repeat split; auto; try apply HW. constructor.
  - cbn [keccak_squeezeblocks]. destruct (permute_ok s HW) as [W1 X1]. specialize (IH _ W1).
    destruct (keccak_squeezeblocks n (KeccakF1600_StatePermute s) r) as [h' s'].
    destruct IH as (W2 & D2 & L2 & B2 & F2). rewrite Hq.
    assert (Lf : length (firstn q (KeccakF1600_StatePermute s)) = q) by (rewrite firstn_length; destruct W1; lia).
    split; auto. split; [apply digits_app; auto using flat_store_digits|].
    split; [rewrite app_length, flat_store_length, Lf; lia|]. split.
    + rewrite bits_of_bytes_app, B2. rewrite flat_store.
      * rewrite firstn_words, X1. cbn [squeeze_bits]. f_equal. f_equal. lia.
      * destruct W1 as [_ W1]. rewrite <- (firstn_skipn q (KeccakF1600_StatePermute s)) in W1. apply Forall_app in W1. apply W1.
    + rewrite F2, X1. change (Nat.iter (S n) ?f ?x) with (f (Nat.iter n f x)).
      clear. generalize (keccak_f1600 (bits_of_words s)). induction n; intros l; [reflexivity|].
      change (keccak_f1600 (Nat.iter n keccak_f1600 (keccak_f1600 l)) = keccak_f1600 (keccak_f1600 (Nat.iter n keccak_f1600 l))).
      f_equal. apply IHn.
Qed.

Lemma squeeze_add f n k : forall S, squeeze_bits f R (n + k) S = squeeze_bits f R n S ++ squeeze_bits f R k (Nat.iter n f S).
Proof.
  induction n as [|n IH]; intros S; [reflexivity|]. cbn [Nat.add squeeze_bits]. rewrite IH, app_assoc. f_equal. f_equal.
  clear. revert S. induction n; intros S; [reflexivity|].
  change (f (Nat.iter n f (f S)) = f (Nat.iter (Datatypes.S n) f S)). f_equal. apply IHn.
Qed.

(** one-shot function with rate r *)
Definition shake_gen (outlen : nat) (input : list Z) : list Z :=
  let s := repeat 0 25 in
  let nblocks := (outlen / r)%nat in
  let s := keccak_absorb s r input 0x1F in
  let (output, s) := keccak_squeezeblocks nblocks s r in
  let outlen := (outlen - nblocks * r)%nat in
  if (outlen =? 0)%nat then output
  else let (t, _) := keccak_squeezeblocks 1 s r in output ++ firstn outlen t.

Lemma shake_ok outlen m : digits 256 m ->
  digits 256 (shake_gen outlen m) /\ length (shake_gen outlen m) = outlen /\
  bits_of_bytes (shake_gen outlen m) = sponge keccak_f1600 R (bits_of_bytes m ++ p1111) (8 * outlen).
Proof.
  intros D. unfold shake_gen. destruct (keccak_absorb_ok m D) as [W A].
  set (s := keccak_absorb _ r m 31) in *. pose proof (squeeze_ok (outlen / r) s W) as Q.
  destruct (keccak_squeezeblocks (outlen / r) s r) as [h s1]. destruct Q as (W1 & D1 & L1 & B1 & F1).
  unfold sponge. rewrite <- A.
  assert (E8 : (8 * outlen / R = outlen / r)%nat).
  { rewrite Nat.div_mul_cancel_l by lia. reflexivity. }
  rewrite E8. pose proof (Nat.div_mod outlen r ltac:(lia)) as DM.
  pose proof (Nat.mod_upper_bound outlen r ltac:(lia)) as MB.
  set (n := (outlen / r)%nat) in *.
  rewrite squeeze_add, <- B1, <- F1. cbn [squeeze_bits]. rewrite app_nil_r.
  assert (LB : length (bits_of_bytes h) = (n * R)%nat) by (rewrite bits_of_bytes_length; lia).
  rewrite firstn_app, (firstn_all2 (bits_of_bytes h)) by lia.
  destruct (Nat.eqb_spec (outlen - n * r) 0) as [E|E].
  - split; auto. split; [lia|]. replace (8 * outlen - length (bits_of_bytes h))%nat with 0%nat by lia.
    rewrite firstn_O. now rewrite app_nil_r.
  - pose proof (squeeze_ok 1 s1 W1) as Q1. destruct (keccak_squeezeblocks 1 s1 r) as [t s2].
    destruct Q1 as (W2 & D2 & L2 & B2 & F2).
    split; [apply digits_app; auto using digits_firstn|].
    split; [rewrite app_length, firstn_length; lia|].
    rewrite bits_of_bytes_app. f_equal. rewrite firstn_bits, B2. cbn [squeeze_bits]. rewrite app_nil_r.
    rewrite !firstn_firstn. f_equal. lia.
Qed.
End Rate.

Lemma shake256_ok outlen m : digits 256 m ->
  digits 256 (shake256 outlen m) /\ length (shake256 outlen m) = outlen /\
  bits_of_bytes (shake256 outlen m) = SHAKE256 (bits_of_bytes m) (8 * outlen).
Proof. apply (shake_ok 136 (ex_intro _ 17%nat eq_refl) ltac:(lia)). Qed.

Lemma bytes_inj a : forall b, digits 256 a -> digits 256 b -> bits_of_bytes a = bits_of_bytes b -> a = b.
Proof.
  intros b Da Db E.
  assert (L : length a = length b).
  { apply (f_equal (@length bool)) in E. rewrite !bits_of_bytes_length in E. lia. }
  apply nth_ext with (d := 0) (d' := 0); auto. intros i Hi.
  apply Z.bits_inj'. intros k Hk.
  pose proof (digits_nth 256 a i ltac:(lia) Da). pose proof (digits_nth 256 b i ltac:(lia) Db).
  destruct (Z.lt_ge_cases k 8); [|rewrite !byte_high by auto; reflexivity].
  pose proof (f_equal (fun l => nth (8 * i + Z.to_nat k) l false) E) as N. cbn beta in N.
  rewrite !nth_bytes in N by lia. rewrite Z2Nat.id in N by lia. exact N.
Qed.
Lemma squeeze_length f r n : forall S, (forall T, length T = 1600%nat -> length (f T) = 1600%nat) -> (8 * r <= 1600)%nat ->
  length S = 1600%nat -> length (squeeze_bits f (8 * r) n S) = (n * (8 * r))%nat.
Proof.
  intros S Hf Hr. revert S. induction n as [|n IH]; intros S L; [reflexivity|].
  cbn [squeeze_bits]. rewrite app_length, firstn_length, IH by auto. lia.
Qed.
Lemma keccak_f_length S : length S = 1600%nat -> length (keccak_f1600 S) = 1600%nat.
Proof.
  intros L. Transparent keccak_f1600. unfold keccak_f1600. Opaque keccak_f1600.
  assert (G : forall l S, length S = 1600%nat -> length (fold_left Rnd l S) = 1600%nat).
  { clear. induction l as [|a l IH]; intros S L; auto. cbn [fold_left]. apply IH. unfold Rnd. apply of_fun_length. }
  apply G, L.
Qed.

Section Rate2.
Variable r : nat.
Hypothesis R8 : exists q, r = (8 * q)%nat.
Hypothesis R0 : (0 < r <= 200)%nat.
Lemma sponge_prefix N a b : length (absorb_bits keccak_f1600 (8 * r) N) = 1600%nat -> (a <= b)%nat ->
  sponge keccak_f1600 (8 * r) N a = firstn a (sponge keccak_f1600 (8 * r) N b).
Proof.
  intros LA Hab. unfold sponge. rewrite firstn_firstn, Nat.min_l by lia.
  assert (Q : (a / (8 * r) <= b / (8 * r))%nat) by (apply Nat.div_le_mono; lia).
  pose proof (Nat.div_mod a (8 * r) ltac:(lia)). pose proof (Nat.mod_upper_bound a (8 * r) ltac:(lia)).
  set (n := (a / (8 * r))%nat) in *. set (k := (b / (8 * r))%nat) in *.
  replace (k + 1)%nat with (n + 1 + (k - n))%nat by lia. rewrite (squeeze_add r keccak_f1600 (n + 1)).
  rewrite firstn_app. set (A := squeeze_bits keccak_f1600 (8 * r) (n + 1) _).
  assert (LL : length A = ((n + 1) * (8 * r))%nat) by (apply squeeze_length; auto using keccak_f_length; lia).
  replace (a - length A)%nat with 0%nat by nia. rewrite firstn_O, app_nil_r. reflexivity.
Qed.
Lemma absorb_len m : digits 256 m -> length (absorb_bits keccak_f1600 (8 * r) (bits_of_bytes m ++ p1111)) = 1600%nat.
Proof.
  intros D. destruct (keccak_absorb_ok r R8 R0 m D) as [[L W] A]. rewrite <- A. apply keccak_f_length.
  rewrite bits_of_words_length. lia.
Qed.
Lemma shake_prefix m a b : digits 256 m -> (a <= b)%nat -> shake_gen r a m = firstn a (shake_gen r b m).
Proof.
  intros D Hab. destruct (shake_ok r R8 R0 a m D) as (D1 & L1 & B1). destruct (shake_ok r R8 R0 b m D) as (D2 & L2 & B2).
  apply bytes_inj; auto using digits_firstn. rewrite firstn_bits, B1, B2. apply sponge_prefix; [apply absorb_len; auto|lia].
Qed.
Lemma squeeze_stream m n : digits 256 m ->
  fst (keccak_squeezeblocks n (keccak_absorb (repeat 0 25) r m 0x1F) r) = shake_gen r (n * r) m.
Proof.
  intros D. destruct (shake_ok r R8 R0 (n * r) m D) as (D1 & L1 & B1).
  destruct (keccak_absorb_ok r R8 R0 m D) as [W A]. pose proof (squeeze_ok r R8 R0 n _ W) as Q.
  destruct (keccak_squeezeblocks n _ r) as [h s']. destruct Q as (W1 & D2 & L2 & B2 & F2). cbn [fst].
  apply bytes_inj; auto. rewrite B1, B2. unfold sponge. rewrite A.
  replace (8 * (n * r) / (8 * r))%nat with n by (rewrite Nat.div_mul_cancel_l, Nat.div_mul by lia; reflexivity).
  rewrite (squeeze_add r), firstn_app.
  rewrite squeeze_length by (auto using keccak_f_length, absorb_len; lia).
  replace (8 * (n * r) - n * (8 * r))%nat with 0%nat by lia. rewrite firstn_O, app_nil_r. symmetry. apply firstn_all2.
  rewrite squeeze_length by (auto using keccak_f_length, absorb_len; lia). lia.
Qed.
End Rate2.
Lemma squeeze_split r a : forall b s,
  keccak_squeezeblocks (a + b) s r =
  let (h, s1) := keccak_squeezeblocks a s r in let (h', s2) := keccak_squeezeblocks b s1 r in (h ++ h', s2).
Proof.
  induction a as [|a IH]; intros b s.
  - cbn. now destruct (keccak_squeezeblocks b s r).
  - cbn [Nat.add keccak_squeezeblocks]. rewrite IH. destruct (keccak_squeezeblocks a _ r) as [h s1].
    destruct (keccak_squeezeblocks b s1 r) as [h' s2]. now rewrite app_assoc.
Qed.
Lemma shake256_prefix m a b : digits 256 m -> (a <= b)%nat -> shake256 a m = firstn a (shake256 b m).
Proof. apply (shake_prefix 136 (ex_intro _ 17%nat eq_refl) ltac:(lia)). Qed.
Lemma shake256_stream m n : digits 256 m ->
  fst (shake256_squeezeblocks n (shake256_absorb (repeat 0 25) m)) = shake256 (n * 136) m.
Proof. apply (squeeze_stream 136 (ex_intro _ 17%nat eq_refl) ltac:(lia)). Qed.
