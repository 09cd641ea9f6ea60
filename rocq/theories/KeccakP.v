(** The unrolled permutation and the sponge code agree with FIPS 202 (proofs only). *)
From Verif Require Import Base BaseP Keccak KeccakSpec.
Set Bullet Behavior "Strict Subproofs".

Lemma round_same rc s : round_E_A rc s = round_A_E rc s.
Proof. reflexivity. Qed.

Definition word (w : Z) : Prop := 0 <= w < 2 ^ 64.
Lemma word_xor a b : word a -> word b -> word (Z.lxor a b).
Proof.
  unfold word. intros Ha Hb. split; [apply Z.lxor_nonneg; lia|].
  destruct (Z.eq_dec (Z.lxor a b) 0) as [E|E]; [rewrite E; lia|].
  assert (0 <= Z.lxor a b) by (apply Z.lxor_nonneg; lia).
  apply Z.log2_lt_pow2; [lia|]. pose proof (Z.log2_lxor a b ltac:(lia) ltac:(lia)) as L.
  assert (K : forall c, 0 <= c < 2 ^ 64 -> Z.log2 c < 64).
  { intros c Hc. destruct (Z.eq_dec c 0) as [->|]; [cbn; lia|]. apply Z.log2_lt_pow2; lia. }
  pose proof (K a Ha). pose proof (K b Hb). lia.
Qed.
Lemma word_and a b : word a -> word b -> word (Z.land a b).
Proof.
  unfold word. intros Ha Hb. split; [apply Z.land_nonneg; lia|].
  destruct (Z.eq_dec (Z.land a b) 0) as [E|E]; [rewrite E; lia|].
  assert (0 <= Z.land a b) by (apply Z.land_nonneg; lia).
  apply Z.log2_lt_pow2; [lia|]. pose proof (Z.log2_land a b ltac:(lia) ltac:(lia)) as L.
  assert (K : forall c, 0 <= c < 2 ^ 64 -> Z.log2 c < 64).
  { intros c Hc. destruct (Z.eq_dec c 0) as [->|]; [cbn; lia|]. apply Z.log2_lt_pow2; lia. }
  pose proof (K a Ha). lia.
Qed.
Lemma word_not a : word a -> word (not64 a). Proof. unfold word, not64. lia. Qed.
Lemma word_rol a o : 0 < o < 64 -> word a -> word (rol a o).
Proof.
  intros Ho Ha. apply word_xor.
  - unfold word. apply Z.mod_pos_bound. lia.
  - unfold word in *. rewrite Z.shiftr_div_pow2 by lia.
    assert (0 < 2 ^ (64 - o)) by (apply Z.pow_pos_nonneg; lia).
    split; [apply Z.div_pos; lia|]. apply Z.div_lt_upper_bound; nia.
Qed.

Lemma word_high a z : word a -> 64 <= z -> Z.testbit a z = false.
Proof.
  intros Ha Hz. destruct (Z.eq_dec a 0) as [->|]; [apply Z.bits_0|].
  apply Z.bits_above_log2; [apply Ha|]. unfold word in Ha.
  pose proof (proj1 (Z.log2_lt_pow2 a 64 ltac:(lia)) ltac:(lia)). lia.
Qed.
Lemma bit_rol a (o : nat) (z : nat) : (0 < o < 64)%nat -> (z < 64)%nat -> word a ->
  Z.testbit (rol a (Z.of_nat o)) (Z.of_nat z) = Z.testbit a (Z.of_nat (zback o z)).
Proof.
  intros Ho Hz Ha. unfold rol, zback. rewrite Z.lxor_spec, Z.mod_pow2_bits_low by lia.
  rewrite Z.shiftl_spec, Z.shiftr_spec by lia. rewrite (Nat.mod_small o) by lia.
  destruct (Nat.lt_ge_cases z o) as [L|L].
  - rewrite (Z.testbit_neg_r a) by lia. rewrite xorb_false_l. f_equal.
    rewrite Nat.mod_small by lia. lia.
  - rewrite (word_high a (Z.of_nat z + (64 - Z.of_nat o))) by (auto; lia). rewrite xorb_false_r. f_equal.
    replace (z + (64 - o))%nat with (z - o + 1 * 64)%nat by lia. rewrite Nat.mod_add by lia.
    rewrite Nat.mod_small by lia. lia.
Qed.
Lemma bit_not a z : (z < 64)%nat -> word a -> Z.testbit (not64 a) (Z.of_nat z) = xorb (Z.testbit a (Z.of_nat z)) true.
Proof.
  intros Hz Ha. unfold not64.
  replace (2 ^ 64 - 1 - a) with (Z.ones 64 - a) by (rewrite Z.ones_equiv; lia).
  rewrite Z.sub_nocarry_ldiff.
  - rewrite Z.ldiff_spec, Z.ones_spec_low by lia. now rewrite xorb_true_r.
  - apply Z.bits_inj'. intros k Hk. rewrite Z.ldiff_spec, Z.bits_0.
    destruct (Z.lt_ge_cases k 64).
    + rewrite Z.ones_spec_low by lia. now rewrite andb_false_r.
    + rewrite word_high by auto. reflexivity.
Qed.
Lemma zback_lt k z : (zback k z < 64)%nat.
Proof. apply Nat.mod_upper_bound. lia. Qed.

Lemma zback_0 z : (z < 64)%nat -> zback 0 z = z.
Proof. intros H. unfold zback. change (64 - 0 mod 64)%nat with (1 * 64)%nat. rewrite Nat.mod_add by lia. now apply Nat.mod_small. Qed.

Definition bits_of_words (s : list Z) : list bool :=
  flat_map (fun w => map (fun i => Z.testbit w (Z.of_nat i)) (seq 0 64)) s.
Lemma bits_of_words_length s : length (bits_of_words s) = (64 * length s)%nat.
Proof. induction s; cbn [bits_of_words flat_map length]; [reflexivity|]. rewrite app_length, map_length, seq_length. fold (bits_of_words s). lia. Qed.
Lemma nth_bits s : forall i z, (z < 64)%nat ->
  nth (64 * i + z) (bits_of_words s) false = if (i <? length s)%nat then Z.testbit (nth i s 0) (Z.of_nat z) else false.
Proof.
  induction s as [|w s IH]; intros i z Hz.
  - cbn [bits_of_words flat_map]. destruct (64 * i + z)%nat; reflexivity.
  - cbn [bits_of_words flat_map]. fold (bits_of_words s).
    assert (L : length (map (fun i => Z.testbit w (Z.of_nat i)) (seq 0 64)) = 64%nat) by (rewrite map_length; reflexivity).
    destruct i as [|i].
    + rewrite app_nth1 by lia. rewrite Nat.mul_0_r, Nat.add_0_l.
      rewrite (nth_indep _ false (Z.testbit w (Z.of_nat 0))) by (rewrite L; lia).
      rewrite (map_nth (fun i => Z.testbit w (Z.of_nat i))). rewrite seq_nth by lia. reflexivity.
    + rewrite app_nth2 by lia. rewrite L. replace (64 * S i + z - 64)%nat with (64 * i + z)%nat by lia.
      rewrite IH by auto. reflexivity.
Qed.
Lemma bits_inj s t : length s = length t -> Forall word s -> Forall word t -> bits_of_words s = bits_of_words t -> s = t.
Proof.
  intros L Hs Ht E. apply nth_ext with (d := 0) (d' := 0); auto. intros i Hi.
  rewrite Forall_forall in Hs, Ht.
  assert (W1 := Hs _ (nth_In s 0 Hi)). assert (W2 := Ht _ (@nth_In _ i t 0 ltac:(lia))).
  apply Z.bits_inj'. intros k Hk. destruct (Z.lt_ge_cases k 64) as [K|K]; [|rewrite !word_high; auto].
  pose proof (f_equal (fun l => nth (64 * i + Z.to_nat k) l false) E) as N. cbn beta in N.
  rewrite !nth_bits in N by lia. rewrite (proj2 (Nat.ltb_lt i (length s))), (proj2 (Nat.ltb_lt i (length t))) in N by lia.
  rewrite Z2Nat.id in N by lia. exact N.
Qed.

Lemma bit_rolZ a o (z : nat) : 0 < o < 64 -> (z < 64)%nat -> word a ->
  Z.testbit (rol a o) (Z.of_nat z) = Z.testbit a (Z.of_nat (zback (Z.to_nat o) z)).
Proof. intros Ho Hz Ha. rewrite <- (Z2Nat.id o) at 1 by lia. apply bit_rol; auto; lia. Qed.

(** [br w f]: w is a 64-bit word with bits f *)
Definition br (w : Z) (f : nat -> bool) : Prop := word w /\ forall z, (z < 64)%nat -> Z.testbit w (Z.of_nat z) = f z.
Lemma br_xor a b f g : br a f -> br b g -> br (Z.lxor a b) (fun z => xorb (f z) (g z)).
Proof. intros [Wa Fa] [Wb Fb]. split; [now apply word_xor|]. intros z Hz. now rewrite Z.lxor_spec, Fa, Fb. Qed.
Lemma br_rol a o f : 0 < o < 64 -> br a f -> br (rol a o) (fun z => f (zback (Z.to_nat o) z)).
Proof.
  intros Ho [Wa Fa]. split; [now apply word_rol|]. intros z Hz. rewrite bit_rolZ by auto. apply Fa, zback_lt.
Qed.
Lemma br_chi a b c f g h : br a f -> br b g -> br c h ->
  br (Z.lxor a (Z.land (not64 b) c)) (fun z => xorb (f z) (xorb (g z) true && h z)).
Proof.
  intros [Wa Fa] [Wb Fb] [Wc Fc]. split; [auto using word_xor, word_and, word_not|]. intros z Hz.
  now rewrite Z.lxor_spec, Z.land_spec, bit_not, Fa, Fb, Fc.
Qed.
Lemma br_ext a f g : br a f -> (forall z, (z < 64)%nat -> f z = g z) -> br a g.
Proof. intros [Wa Fa] E. split; auto. intros z Hz. rewrite Fa; auto. Qed.
Ltac brt := lazymatch goal with
  | |- br (Z.lxor _ (Z.land (not64 _) _)) _ => eapply br_chi; [brt|brt|brt]
  | |- br (Z.lxor _ _) _ => eapply br_xor; [brt|brt]
  | |- br (rol _ _) _ => eapply br_rol; [lia|brt]
  | |- br _ _ => eassumption
  end.

Lemma flat_seq {A} (f g : nat -> list A) l : (forall i, In i l -> f i = g i) -> flat_map f l = flat_map g l.
Proof. induction l; intros H; cbn; [reflexivity|]. rewrite H by (cbn; auto). rewrite IHl; auto. intros; apply H; cbn; auto. Qed.

Lemma sget_bits s x y z : (z < 64)%nat -> (5 * y + x < length s)%nat ->
  sget (bits_of_words s) x y z = Z.testbit (nth (5 * y + x) s 0) (Z.of_nat z).
Proof.
  intros Hz Hl. unfold sget. rewrite nth_bits by auto. destruct (Nat.ltb_spec (5 * y + x) (length s)); [reflexivity|lia].
Qed.

Section Lanes.
Variables s0 s1 s2 s3 s4 s5 s6 s7 s8 s9 s10 s11 s12 s13 s14 s15 s16 s17 s18 s19 s20 s21 s22 s23 s24 rcv : Z.
Variable A : arr.
Hypothesis W0 : br s0 (A 0%nat 0%nat).
Hypothesis W1 : br s1 (A 1%nat 0%nat).
Hypothesis W2 : br s2 (A 2%nat 0%nat).
Hypothesis W3 : br s3 (A 3%nat 0%nat).
Hypothesis W4 : br s4 (A 4%nat 0%nat).
Hypothesis W5 : br s5 (A 0%nat 1%nat).
Hypothesis W6 : br s6 (A 1%nat 1%nat).
Hypothesis W7 : br s7 (A 2%nat 1%nat).
Hypothesis W8 : br s8 (A 3%nat 1%nat).
Hypothesis W9 : br s9 (A 4%nat 1%nat).
Hypothesis W10 : br s10 (A 0%nat 2%nat).
Hypothesis W11 : br s11 (A 1%nat 2%nat).
Hypothesis W12 : br s12 (A 2%nat 2%nat).
Hypothesis W13 : br s13 (A 3%nat 2%nat).
Hypothesis W14 : br s14 (A 4%nat 2%nat).
Hypothesis W15 : br s15 (A 0%nat 3%nat).
Hypothesis W16 : br s16 (A 1%nat 3%nat).
Hypothesis W17 : br s17 (A 2%nat 3%nat).
Hypothesis W18 : br s18 (A 3%nat 3%nat).
Hypothesis W19 : br s19 (A 4%nat 3%nat).
Hypothesis W20 : br s20 (A 0%nat 4%nat).
Hypothesis W21 : br s21 (A 1%nat 4%nat).
Hypothesis W22 : br s22 (A 2%nat 4%nat).
Hypothesis W23 : br s23 (A 3%nat 4%nat).
Hypothesis W24 : br s24 (A 4%nat 4%nat).
Variable ir : nat.
Hypothesis Wrc : br rcv (RC ir).
Definition st := [s0; s1; s2; s3; s4; s5; s6; s7; s8; s9; s10; s11; s12; s13; s14; s15; s16; s17; s18; s19; s20; s21; s22; s23; s24].
Lemma lane_br x y : (x < 5)%nat -> (y < 5)%nat ->
  br (nth (5 * y + x) (round_A_E rcv st) 0) (iota ir (chi (pi (rho (theta A)))) x y).
Proof.
  intros Hx Hy.
  unfold round_A_E, st in *.
  do 5 (destruct x as [|x]; [do 5 (destruct y as [|y]; [
    cbn [nth Nat.mul Nat.add]; eapply br_ext; [brt|];
    intros z Hz; 
    match goal with |- _ = ?r => let r' := eval cbv -[zback xorb andb RC rho_offset] in r in change r with r' end;
    repeat match goal with |- context[rho_offset ?a ?b] => let v := eval vm_compute in (rho_offset a b) in change (rho_offset a b) with v end;
    rewrite ?(zback_0 z Hz);
    reflexivity|]); lia|]); lia.
Qed.
End Lanes.
