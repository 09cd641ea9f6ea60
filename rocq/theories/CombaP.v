(** Correctness of comba multiplication and of the Montgomery reduction (proofs only). *)
From Verif Require Import Base BaseP Digits DigitsP.

(** ** Finite sums and convolutions *)
Definition zsum (f : nat -> Z) (l : list nat) : Z := fold_right (fun j a => f j + a) 0 l.

Lemma zsum_app f l1 l2 : zsum f (l1 ++ l2) = zsum f l1 + zsum f l2.
Proof. unfold zsum. induction l1 as [|x l1 IH]; cbn [app fold_right]; lia. Qed.

Lemma zsum_ext f g l : (forall j, In j l -> f j = g j) -> zsum f l = zsum g l.
Proof.
  unfold zsum. induction l as [|x l IH]; intros H; cbn [fold_right]; [reflexivity|].
  rewrite (H x) by (left; reflexivity). rewrite IH; [reflexivity|]. intros; apply H; right; auto.
Qed.

Lemma zsum_zero f l : (forall j, In j l -> f j = 0) -> zsum f l = 0.
Proof.
  unfold zsum. induction l as [|x l IH]; intros H; cbn [fold_right]; [reflexivity|].
  rewrite (H x) by (left; reflexivity). rewrite IH; [reflexivity|]. intros; apply H; right; auto.
Qed.

Lemma zsum_plus f g l : zsum (fun j => f j + g j) l = zsum f l + zsum g l.
Proof. unfold zsum. induction l as [|x l IH]; cbn [fold_right]; lia. Qed.

Lemma zsum_scal c f l : zsum (fun j => c * f j) l = c * zsum f l.
Proof. unfold zsum. induction l as [|x l IH]; cbn [fold_right]; [ring|]. rewrite IH. ring. Qed.

Lemma zsum_map f (g : nat -> nat) l : zsum f (map g l) = zsum (fun j => f (g j)) l.
Proof. unfold zsum. induction l as [|x l IH]; cbn [fold_right map]; congruence. Qed.

Lemma zsum_seq_S f n k : zsum f (seq n (S k)) = zsum f (seq n k) + f (n + k)%nat.
Proof. rewrite seq_snoc, zsum_app. unfold zsum at 2. cbn [fold_right]. lia. Qed.

Definition conv (a b : list Z) (k : nat) : Z :=
  zsum (fun j => nth j a 0 * nth (k - j) b 0) (seq 0 (S k)).

Lemma conv_nil b k : conv [] b k = 0.
Proof. apply zsum_zero. intros j _. destruct j; reflexivity. Qed.

Lemma conv_cons_0 x a b : conv (x :: a) b 0 = x * nth 0 b 0.
Proof. unfold conv. cbn. lia. Qed.

Lemma conv_cons_S x a b k : conv (x :: a) b (S k) = x * nth (S k) b 0 + conv a b k.
Proof.
  unfold conv. change (seq 0 (S (S k))) with (0%nat :: seq 1 (S k)).
  unfold zsum at 1. cbn [fold_right]. fold (zsum (fun j => nth j (x :: a) 0 * nth (S k - j) b 0) (seq 1 (S k))).
  rewrite <- (seq_shift (S k) 0), zsum_map. cbn [nth Nat.sub]. reflexivity.
Qed.

Lemma valB_sum B l m : (length l <= m)%nat ->
  valB B l = zsum (fun k => B ^ Z.of_nat k * nth k l 0) (seq 0 m).
Proof.
  revert m; induction l as [|d l IH]; intros m H.
  - cbn [valB]. symmetry. apply zsum_zero. intros j _. destruct j; cbn; lia.
  - cbn [length] in H. destruct m as [|m]; [lia|].
    change (seq 0 (S m)) with (0%nat :: seq 1 m). unfold zsum. cbn [fold_right].
    fold (zsum (fun k => B ^ Z.of_nat k * nth k (d :: l) 0) (seq 1 m)).
    rewrite <- (seq_shift m 0), zsum_map. cbn [valB nth]. change (Z.of_nat 0) with 0.
    rewrite Z.pow_0_r, Z.mul_1_l. rewrite (IH m) by lia. rewrite <- zsum_scal. f_equal.
    apply zsum_ext. intros j _. rewrite Nat2Z.inj_succ, Z.pow_succ_r by lia. ring.
Qed.

Lemma conv_total B a b m : (length a + length b <= S m)%nat ->
  zsum (fun k => B ^ Z.of_nat k * conv a b k) (seq 0 m) = valB B a * valB B b.
Proof.
  revert m; induction a as [|x a IH]; intros m H.
  - cbn [valB]. rewrite Z.mul_0_l. apply zsum_zero. intros j _. rewrite conv_nil. lia.
  - cbn [length] in H. cbn [valB].
    destruct m as [|m].
    + destruct b; [|cbn [length] in H; lia]. cbn. ring.
    + assert (E : forall k, conv (x :: a) b k = x * nth k b 0 + match k with O => 0 | S k' => conv a b k' end).
      { intros [|k]; [rewrite conv_cons_0; lia | apply conv_cons_S]. }
      rewrite (zsum_ext _ (fun k => x * (B ^ Z.of_nat k * nth k b 0) +
         B ^ Z.of_nat k * match k with O => 0 | S k' => conv a b k' end)).
      2:{ intros j _. rewrite E. ring. }
      rewrite zsum_plus, zsum_scal, <- (valB_sum B b) by lia.
      change (seq 0 (S m)) with (0%nat :: seq 1 m). unfold zsum. cbn [fold_right].
      fold (zsum (fun k => B ^ Z.of_nat k * match k with O => 0 | S k' => conv a b k' end) (seq 1 m)).
      rewrite <- (seq_shift m 0), zsum_map.
      rewrite (zsum_ext _ (fun k => B * (B ^ Z.of_nat k * conv a b k))).
      2:{ intros j _. rewrite Nat2Z.inj_succ, Z.pow_succ_r by lia. ring. }
      rewrite zsum_scal, (IH m) by lia. ring.
Qed.

Lemma conv_window a b n k : length a = n -> length b = n -> (n <= k)%nat -> (k < 2 * n)%nat ->
  conv a b k = zsum (fun j => nth j a 0 * nth (k - j) b 0) (seq (k - n + 1) (n - (k - n + 1))).
Proof.
  intros Ha Hb H1 H2. unfold conv.
  assert (E : seq 0 (S k) = seq 0 (k - n + 1) ++ seq (k - n + 1) (n - (k - n + 1)) ++ seq n (S k - n)).
  { replace (S k) with ((k - n + 1) + ((n - (k - n + 1)) + (S k - n)))%nat at 1 by lia.
    rewrite (seq_app (k - n + 1)), (seq_app (n - (k - n + 1)) (S k - n)).
    replace (0 + (k - n + 1) + (n - (k - n + 1)))%nat with n by lia. reflexivity. }
  rewrite E, !zsum_app.
  rewrite (zsum_zero _ (seq 0 (k - n + 1))).
  2:{ intros j Hj. apply in_seq in Hj. rewrite (nth_overflow b) by lia. lia. }
  rewrite (zsum_zero _ (seq n (S k - n))).
  2:{ intros j Hj. apply in_seq in Hj. rewrite (nth_overflow a) by lia. lia. }
  lia.
Qed.

Lemma mulb X x y : 0 <= x < X -> 0 <= y < X -> 0 <= x * y <= (X - 1) * (X - 1).
Proof. intros; nia. Qed.

Lemma top_lt X v u t : 0 < X -> 0 <= v -> 0 <= u -> v + X * u + X * X * t < X * X * X -> t < X.
Proof.
  intros HX Hv Hu H. assert (0 <= X * u) by (apply Z.mul_nonneg_nonneg; lia).
  apply (Zmult_lt_reg_r t X (X * X)); lia.
Qed.

Lemma mul_le_r x y M : 0 <= M -> x <= y -> x * M <= y * M.
Proof. intros. apply Z.mul_le_mono_nonneg_r; auto. Qed.

Lemma skipn_S_tl (i : nat) : forall l : list Z, skipn (S i) l = tl (skipn i l).
Proof.
  induction i as [|i IH]; intros [|x l]; try reflexivity.
  change (skipn (S (S i)) (x :: l)) with (skipn (S i) l). rewrite IH. reflexivity.
Qed.

Lemma nth_skipnZ (i : nat) : forall (l : list Z) k, nth k (skipn i l) 0 = nth (i + k) l 0.
Proof.
  induction i as [|i IH]; intros [|x l] k; try reflexivity.
  - destruct k; reflexivity.
  - cbn [skipn Nat.add nth]. apply IH.
Qed.

Section P.
Variable h : Z.
Hypothesis Hh : 2 <= h.
Local Notation w := (2 * h).
Local Notation B := (Digits.B w).

Lemma Hw : 2 <= w.
Proof. lia. Qed.
Lemma HB_ : 0 < B.
Proof. exact (B_pos w Hw). Qed.
Lemma HB4_ : 4 <= B.
Proof. exact (B_ge4 w Hw). Qed.
Hint Resolve HB_ HB4_ Hw : core.

Definition accv (s : acc) : Z := acc_v s + B * acc_u s + B * B * acc_t s.
Definition acc_ok (s : acc) : Prop := 0 <= acc_v s < B /\ 0 <= acc_u s < B /\ 0 <= acc_t s < B.

Lemma accv_range s : acc_ok s -> 0 <= accv s < B * B * B.
Proof.
  pose proof HB_ as HB. pose proof HB4_ as HB4.
  unfold acc_ok, accv. destruct s as [t u v]. cbn [acc_v acc_u acc_t]. intros (H1 & H2 & H3).
  assert (0 <= B * u <= B * (B - 1)) by nia.
  assert (0 <= B * B * t <= B * B * (B - 1)) by nia. nia.
Qed.

Lemma acc_small s : acc_ok s -> accv s < B -> accv s = acc_v s.
Proof.
  destruct s as [t u v]. unfold accv, acc_ok. cbn [acc_t acc_u acc_v]. intros (H1 & H2 & H3) H.
  pose proof HB_ as HB.
  assert (U : 0 <= B * u) by (apply Z.mul_nonneg_nonneg; lia).
  assert (T : 0 <= B * t) by (apply Z.mul_nonneg_nonneg; lia).
  assert (E : v + B * u + B * B * t = v + B * (u + B * t)) by ring. rewrite E in *.
  assert (u + B * t = 0).
  { destruct (Z.eq_dec (u + B * t) 0); auto.
    assert (B * 1 <= B * (u + B * t)) by (apply Z.mul_le_mono_nonneg_l; lia). lia. }
  rewrite H0. lia.
Qed.

Lemma ADDC_dm c x y : 0 <= c <= 1 -> 0 <= x < B -> 0 <= y < B ->
  exists co s, ADDC w c x y = (co, s) /\ 0 <= co <= 1 /\ 0 <= s < B /\ x + y + c = s + B * co.
Proof.
  pose proof HB_ as HB. pose proof HB4_ as HB4.
  intros Hc Hx Hy. rewrite ADDC_spec by (auto; lia).
  exists ((x + y + c) / B), ((x + y + c) mod B). split; [reflexivity|].
  pose proof (Z.div_mod (x + y + c) B ltac:(lia)). pose proof (Z.mod_pos_bound (x + y + c) B HB).
  split; [|split; lia].
  split; [apply Z.div_pos; lia|]. apply Z.lt_succ_r. apply Z.div_lt_upper_bound; lia.
Qed.

Lemma muladd_spec x y s :
  0 <= x < B -> 0 <= y < B -> acc_ok s -> accv s + x * y < B * B * B ->
  acc_ok (muladd w x y s) /\ accv (muladd w x y s) = accv s + x * y.
Proof.
  pose proof HB_ as HB. pose proof HB4_ as HB4.
  intros Hx Hy Hs Hov. unfold muladd.
  pose proof (digit_x_digit_spec h Hh x y Hx Hy) as D.
  destruct (digit_x_digit w x y) as [UV0 UV1]. destruct D as (D0 & D1 & DP).
  destruct s as [t u v]. unfold acc_ok, accv in *. cbn [acc_v acc_u acc_t] in *.
  destruct Hs as (Hv & Hu & Ht).
  destruct (ADDC_dm 0 UV0 v ltac:(lia) D0 Hv) as (c1 & v' & E1 & C1 & V1 & S1). rewrite E1.
  destruct (ADDC_dm c1 UV1 u C1 D1 Hu) as (c2 & u' & E2 & C2 & V2 & S2). rewrite E2.
  cbn [acc_v acc_u acc_t].
  assert (E : v + B * u + B * B * t + x * y = v' + B * u' + B * B * (t + c2)).
  { rewrite <- DP.
    assert (H1 : v = v' + B * c1 - UV0) by lia. assert (H2 : u = u' + B * c2 - c1 - UV1) by lia.
    rewrite H1, H2. ring. }
  assert (T : t + c2 < B).
  { rewrite E in Hov. apply (top_lt B v' u' (t + c2)); lia. }
  assert (DT : dadd w t c2 = t + c2) by (unfold dadd; apply Z.mod_small; lia).
  rewrite DT. split; [repeat split; lia|]. rewrite E. reflexivity.
Qed.

Lemma accadd_spec x s :
  0 <= x < B -> acc_ok s -> accv s + x < B * B * B ->
  acc_ok (accadd w x s) /\ accv (accadd w x s) = accv s + x.
Proof.
  pose proof HB_ as HB. pose proof HB4_ as HB4.
  intros Hx Hs Hov. unfold accadd.
  destruct s as [t u v]. unfold acc_ok, accv in *. cbn [acc_v acc_u acc_t] in *.
  destruct Hs as (Hv & Hu & Ht).
  destruct (ADDC_dm 0 v x ltac:(lia) Hv Hx) as (c1 & v' & E1 & C1 & V1 & S1). rewrite E1.
  destruct (ADDC_dm c1 u 0 C1 Hu ltac:(lia)) as (c2 & u' & E2 & C2 & V2 & S2). rewrite E2.
  cbn [acc_v acc_u acc_t].
  assert (E : v + B * u + B * B * t + x = v' + B * u' + B * B * (t + c2)).
  { assert (H1 : v = v' + B * c1 - x) by lia. assert (H2 : u = u' + B * c2 - c1) by lia.
    rewrite H1, H2. ring. }
  assert (T : t + c2 < B).
  { rewrite E in Hov. apply (top_lt B v' u' (t + c2)); lia. }
  assert (DT : dadd w t c2 = t + c2) by (unfold dadd; apply Z.mod_small; lia).
  rewrite DT. split; [repeat split; lia|]. rewrite E. reflexivity.
Qed.

Lemma acc_shift_spec s : acc_ok s -> acc_ok (acc_shift s) /\ accv s = acc_v s + B * accv (acc_shift s).
Proof.
  pose proof HB_ as HB. pose proof HB4_ as HB4.
  destruct s as [t u v]. unfold acc_ok, accv, acc_shift. cbn [acc_v acc_u acc_t].
  intros H. split; [lia|]. ring.
Qed.

Lemma fold_muladd (f g : nat -> Z) (cond : nat -> bool) l : forall s,
  (forall j, 0 <= f j < B) -> (forall j, 0 <= g j < B) ->
  (forall j, In j l -> cond j = false -> g j = 0) ->
  acc_ok s -> accv s + Z.of_nat (length l) * ((B - 1) * (B - 1)) < B * B * B ->
  let s' := fold_left (fun s j => if cond j then muladd w (f j) (g j) s else s) l s in
  acc_ok s' /\ accv s' = accv s + zsum (fun j => f j * g j) l.
Proof.
  pose proof HB_ as HB. pose proof HB4_ as HB4.
  induction l as [|x l IH]; intros s Hf Hg Hc Hs Hov; cbn [fold_left].
  - split; auto. unfold zsum. cbn. lia.
  - cbn [length] in Hov. rewrite Nat2Z.inj_succ in Hov.
    pose proof (mulb B (f x) (g x) (Hf x) (Hg x)) as MB.
    set (M := (B - 1) * (B - 1)) in *.
    assert (NN : 0 <= Z.of_nat (length l) * M) by nia.
    unfold zsum. cbn [fold_right]. fold (zsum (fun j => f j * g j) l).
    destruct (cond x) eqn:E.
    + destruct (muladd_spec (f x) (g x) s (Hf x) (Hg x) Hs ltac:(lia)) as [O1 V1].
      destruct (IH (muladd w (f x) (g x) s) Hf Hg) as [O2 V2]; auto.
      * intros j Hj. apply Hc. right; auto.
      * rewrite V1. lia.
      * split; auto. rewrite V2, V1. lia.
    + assert (Z0 : g x = 0) by (apply Hc; [left|]; auto).
      destruct (IH s Hf Hg) as [O2 V2]; auto.
      * intros j Hj. apply Hc. right; auto.
      * lia.
      * split; auto. rewrite V2, Z0. lia.
Qed.

(** ** mp_mul *)
Lemma fold_muladd_all (f g : nat -> Z) l s :
  (forall j, 0 <= f j < B) -> (forall j, 0 <= g j < B) ->
  acc_ok s -> accv s + Z.of_nat (length l) * ((B - 1) * (B - 1)) < B * B * B ->
  let s' := fold_left (fun s j => muladd w (f j) (g j) s) l s in
  acc_ok s' /\ accv s' = accv s + zsum (fun j => f j * g j) l.
Proof.
  pose proof HB_ as HB. pose proof HB4_ as HB4.
  intros Hf Hg Hs Hov.
  apply (fold_muladd f g (fun _ => true) l s Hf Hg); auto. intros; discriminate.
Qed.

Lemma zsum_bound f l M : (forall j, In j l -> 0 <= f j <= M) -> 0 <= zsum f l <= Z.of_nat (length l) * M.
Proof.
  pose proof HB_ as HB. pose proof HB4_ as HB4.
  unfold zsum. induction l as [|x l IH]; intros H; cbn [fold_right length]; [lia|].
  rewrite Nat2Z.inj_succ. pose proof (H x (or_introl eq_refl)).
  assert (forall j, In j l -> 0 <= f j <= M) by (intros; apply H; right; auto).
  specialize (IH H1). lia.
Qed.

(** One column: the carry bound [N*(B-1)] is preserved when at most N products (and
    one digit) are added. *)
Lemma carry_bound N A S d : 0 <= A <= N * (B - 1) -> 0 <= S <= N * ((B - 1) * (B - 1)) ->
  forall v A', 0 <= v < B -> A + S + d = v + B * A' -> 0 <= A' -> d = 0 -> A' <= N * (B - 1).
Proof.
  pose proof HB_ as HB. pose proof HB4_ as HB4.
  intros HA HS v A' Hv E HA' ->. assert (B * A' <= N * (B - 1) * B) by nia. nia.
Qed.

Lemma mp_mul_spec a b n :
  (1 <= n)%nat -> Z.of_nat n < B -> length a = n -> length b = n -> digits B a -> digits B b ->
  mp_mul w a b n = toB B (2 * n) (valB B a * valB B b).
Proof.
  pose proof HB_ as HB. pose proof HB4_ as HB4.
  intros Hn HnB La Lb Da Db. unfold mp_mul.
  set (N := Z.of_nat n) in *.
  set (M := (B - 1) * (B - 1)).
  assert (HM : 0 <= M) by (unfold M; nia).
  assert (NM : N * (B - 1) + N * M < B * B * B).
  { unfold M. assert (N * (B - 1) + N * ((B - 1) * (B - 1)) = N * (B - 1) * B) by ring. nia. }
  set (col := fun (lo hi i : nat) (s : acc) =>
    fold_left (fun s j => muladd w (nth j a 0) (nth (i - j) b 0) s) (seq lo (hi - lo)) s).
  assert (COL : forall lo hi i s, (hi - lo <= n)%nat -> acc_ok s -> 0 <= accv s <= N * (B - 1) ->
     acc_ok (col lo hi i s) /\
     accv (col lo hi i s) = accv s + zsum (fun j => nth j a 0 * nth (i - j) b 0) (seq lo (hi - lo)) /\
     acc_ok (acc_shift (col lo hi i s)) /\ 0 <= accv (acc_shift (col lo hi i s)) <= N * (B - 1)).
  { intros lo hi i s Hl Hs HA. unfold col.
    destruct (fold_muladd_all (fun j => nth j a 0) (fun j => nth (i - j) b 0) (seq lo (hi - lo)) s)
      as [O V].
    - intros; apply digits_nth; auto.
    - intros; apply digits_nth; auto.
    - auto.
    - rewrite seq_length. fold M. assert (Z.of_nat (hi - lo) * M <= N * M) by (apply mul_le_r; lia). lia.
    - cbv zeta in O, V. split; auto. split; auto.
      destruct (acc_shift_spec _ O) as [O2 V2]. split; auto.
      pose proof (accv_range _ O2) as R. split; [lia|].
      assert (ZB : 0 <= zsum (fun j => nth j a 0 * nth (i - j) b 0) (seq lo (hi - lo)) <= N * M).
      { pose proof (zsum_bound (fun j => nth j a 0 * nth (i - j) b 0) (seq lo (hi - lo)) M) as Z1.
        rewrite seq_length in Z1.
        assert (0 <= zsum (fun j => nth j a 0 * nth (i - j) b 0) (seq lo (hi - lo)) <= Z.of_nat (hi - lo) * M).
        { apply Z1. intros j _. apply mulb; apply digits_nth; auto. }
        assert (Z.of_nat (hi - lo) * M <= N * M) by (apply mul_le_r; lia). lia. }
      eapply (carry_bound N (accv s) _ 0); eauto; [|rewrite <- V2, V; lia|lia].
      destruct O as (O & _). exact O. }
  (* first loop *)
  set (step1 := fun '(s, c) i => let s := col 0%nat (S i) i s in (acc_shift s, upd i (acc_v s) c)).
  assert (L1 : forall i, (i <= n)%nat ->
    let '(s, c) := fold_left step1 (seq 0 i) (mkacc 0 0 0, repeat 0 (2 * n)) in
    acc_ok s /\ 0 <= accv s <= N * (B - 1) /\ length c = (2 * n)%nat /\ digits B c /\
    valB B (firstn i c) + B ^ Z.of_nat i * accv s = zsum (fun k => B ^ Z.of_nat k * conv a b k) (seq 0 i)).
  { induction i as [|i IH]; intros Hi.
    - cbn [seq fold_left]. unfold acc_ok, accv. cbn [acc_v acc_u acc_t].
      split; [lia|]. split; [nia|]. repeat split.
      + apply repeat_length.
      + apply digits_repeat0; auto.
      + change (Z.of_nat 0) with 0. unfold zsum. cbn [firstn valB fold_right]. ring.
    - rewrite seq_snoc, fold_left_app. specialize (IH ltac:(lia)).
      destruct (fold_left step1 (seq 0 i) (mkacc 0 0 0, repeat 0 (2 * n))) as [s c].
      destruct IH as (O & A & L & D & V). cbn [fold_left step1 Nat.add].
      destruct (COL 0%nat (S i) i s ltac:(lia) O A) as (O1 & V1 & O2 & A2).
      destruct (acc_shift_spec _ O1) as [_ V2].
      set (s1 := col 0%nat (S i) i s) in *.
      split; auto. split; auto. split; [rewrite upd_length; auto|].
      split. { apply digits_upd; auto. destruct O1 as (O1 & _); exact O1. }
      rewrite firstn_upd_S by lia. rewrite valB_app, firstn_length_le by lia.
      cbn [valB]. rewrite Z.mul_0_r, Z.add_0_r.
      rewrite zsum_app. unfold zsum at 2. cbn [fold_right]. rewrite <- V.
      unfold conv. rewrite Nat.sub_0_r in V1.
      rewrite Nat2Z.inj_succ, Z.pow_succ_r by lia.
      replace (valB B (firstn i c) + B ^ Z.of_nat i * acc_v s1 + B * B ^ Z.of_nat i * accv (acc_shift s1))
        with (valB B (firstn i c) + B ^ Z.of_nat i * (acc_v s1 + B * accv (acc_shift s1))) by ring.
      rewrite <- V2, V1. ring. }
  specialize (L1 n ltac:(lia)).
  change (fold_left _ (seq 0 n) (mkacc 0 0 0, repeat 0 (2 * n)))
    with (fold_left step1 (seq 0 n) (mkacc 0 0 0, repeat 0 (2 * n))).
  destruct (fold_left step1 (seq 0 n) (mkacc 0 0 0, repeat 0 (2 * n))) as [s1 c1].
  destruct L1 as (O1 & A1 & Lc1 & D1 & V1).
  set (step2 := fun '(s, c) i => let s := col (i - n + 1)%nat n i s in (acc_shift s, upd i (acc_v s) c)).
  assert (L2 : forall i, (i <= n - 1)%nat ->
    let '(s, c) := fold_left step2 (seq n i) (s1, c1) in
    acc_ok s /\ 0 <= accv s <= N * (B - 1) /\ length c = (2 * n)%nat /\ digits B c /\
    valB B (firstn (n + i) c) + B ^ Z.of_nat (n + i) * accv s
      = zsum (fun k => B ^ Z.of_nat k * conv a b k) (seq 0 (n + i))).
  { induction i as [|i IH]; intros Hi.
    - cbn [seq fold_left]. rewrite Nat.add_0_r. exact (conj O1 (conj A1 (conj Lc1 (conj D1 V1)))).
    - rewrite seq_snoc, fold_left_app. specialize (IH ltac:(lia)).
      destruct (fold_left step2 (seq n i) (s1, c1)) as [s c].
      destruct IH as (O & A & L & D & V). cbn [fold_left step2].
      destruct (COL (n + i - n + 1)%nat n (n + i)%nat s ltac:(lia) O A) as (O3 & V3 & O2 & A2).
      destruct (acc_shift_spec _ O3) as [_ V2].
      set (s3 := col (n + i - n + 1)%nat n (n + i)%nat s) in *.
      split; auto. split; auto. split; [rewrite upd_length; auto|].
      split. { apply digits_upd; auto. destruct O3 as (O3 & _); exact O3. }
      replace (n + S i)%nat with (S (n + i)) by lia.
      rewrite firstn_upd_S by lia. rewrite valB_app, firstn_length_le by lia.
      cbn [valB]. rewrite Z.mul_0_r, Z.add_0_r.
      rewrite zsum_seq_S, <- V. cbn [Nat.add].
      rewrite (conv_window a b n (n + i)) by (auto; lia).
      rewrite Nat2Z.inj_succ, Z.pow_succ_r by lia.
      replace (valB B (firstn (n + i) c) + B ^ Z.of_nat (n + i) * acc_v s3 + B * B ^ Z.of_nat (n + i) * accv (acc_shift s3))
        with (valB B (firstn (n + i) c) + B ^ Z.of_nat (n + i) * (acc_v s3 + B * accv (acc_shift s3))) by ring.
      rewrite <- V2, V3. ring. }
  specialize (L2 (n - 1)%nat ltac:(lia)).
  change (fold_left _ (seq n (n - 1)) (s1, c1)) with (fold_left step2 (seq n (n - 1)) (s1, c1)).
  destruct (fold_left step2 (seq n (n - 1)) (s1, c1)) as [s2 c2].
  destruct L2 as (O2 & A2 & Lc2 & D2 & V2).
  replace (n + (n - 1))%nat with (2 * n - 1)%nat in V2 by lia.
  rewrite conv_total in V2 by lia.
  pose proof (valB_bound B a HB Da) as RA. pose proof (valB_bound B b HB Db) as RB.
  rewrite La in RA. rewrite Lb in RB.
  assert (RAB : valB B a * valB B b < B ^ Z.of_nat (2 * n)).
  { replace (Z.of_nat (2 * n)) with (Z.of_nat n + Z.of_nat n) by lia.
    rewrite Z.pow_add_r by lia. apply Z.mul_lt_mono_nonneg; lia. }
  assert (SP : B ^ Z.of_nat (2 * n) = B ^ Z.of_nat (2 * n - 1) * B).
  { replace (Z.of_nat (2 * n)) with (Z.succ (Z.of_nat (2 * n - 1))) by lia.
    rewrite Z.pow_succ_r by lia. ring. }
  assert (PP : 0 < B ^ Z.of_nat (2 * n - 1)) by (apply Z.pow_pos_nonneg; lia).
  pose proof (valB_bound B (firstn (2 * n - 1) c2) HB (digits_firstn _ _ _ D2)) as RF.
  assert (AS : accv s2 = acc_v s2).
  { apply acc_small; auto. apply (Zmult_lt_reg_r _ _ (B ^ Z.of_nat (2 * n - 1))); auto.
    clear - V2 RAB SP RF. lia. }
  apply valB_inj with (B := B); auto using toB_digits.
  - apply digits_upd; auto. destruct O2 as (O2 & _); exact O2.
  - rewrite upd_length, toB_length. auto.
  - rewrite valB_toB by auto. rewrite Z.mod_small by nia.
    rewrite <- V2, AS.
    rewrite <- (firstn_skipn (2 * n - 1) (upd (2 * n - 1) (acc_v s2) c2)).
    rewrite firstn_upd_le by lia. rewrite valB_app.
    rewrite firstn_length_le by lia. f_equal. f_equal.
    assert (E : upd (2 * n - 1) (acc_v s2) c2 = firstn (2 * n - 1) c2 ++ [acc_v s2]).
    { replace c2 with (firstn (2 * n - 1) c2 ++ skipn (2 * n - 1) c2) at 1 by apply firstn_skipn.
      rewrite upd_app_r by (rewrite firstn_length_le; lia).
      rewrite firstn_length_le by lia. rewrite Nat.sub_diag. f_equal.
      assert (LS : length (skipn (2 * n - 1) c2) = 1%nat) by (rewrite skipn_length; lia).
      destruct (skipn (2 * n - 1) c2) as [|e [|]]; cbn in LS; try lia. reflexivity. }
    rewrite E, skipn_app, skipn_all2 by (rewrite firstn_length_le; lia).
    rewrite firstn_length_le by lia. rewrite Nat.sub_diag. cbn. lia.
Qed.

(** ** rdc_mont *)
Definition p1_ok (zw : nat) (p1 : list Z) : Prop := forall k, (k < zw)%nat -> nth k p1 0 = 0.

Lemma rdc_column (f g : nat -> Z) cond l d n s :
  (forall j, 0 <= f j < B) -> (forall j, 0 <= g j < B) ->
  (forall j, In j l -> cond j = false -> g j = 0) ->
  0 <= d < B -> (1 <= n)%nat -> Z.of_nat n < B -> (length l <= n - 1)%nat ->
  acc_ok s -> 0 <= accv s <= Z.of_nat n * (B - 1) ->
  let s' := accadd w d (fold_left (fun s j => if cond j then muladd w (f j) (g j) s else s) l s) in
  acc_ok s' /\ accv s' = accv s + zsum (fun j => f j * g j) l + d /\
  acc_ok (acc_shift s') /\ 0 <= accv (acc_shift s') <= Z.of_nat n * (B - 1).
Proof.
  pose proof HB_ as HB. pose proof HB4_ as HB4.
  intros Hf Hg Hc Hd Hn HnB Hl Hs HA.
  set (N := Z.of_nat n) in *. set (M := (B - 1) * (B - 1)).
  assert (HM : B - 1 <= M) by (unfold M; nia).
  assert (NM : N * (B - 1) + N * M < B * B * B).
  { unfold M. assert (N * (B - 1) + N * ((B - 1) * (B - 1)) = N * (B - 1) * B) by ring. nia. }
  assert (LM : Z.of_nat (length l) * M <= (N - 1) * M) by nia.
  destruct (fold_muladd f g cond l s Hf Hg Hc Hs) as [O1 V1]. { fold M. nia. }
  cbv zeta in O1, V1.
  set (s1 := fold_left (fun s j => if cond j then muladd w (f j) (g j) s else s) l s) in *.
  assert (ZB : 0 <= zsum (fun j => f j * g j) l <= (N - 1) * M).
  { pose proof (zsum_bound (fun j => f j * g j) l M) as Z1.
    assert (0 <= zsum (fun j => f j * g j) l <= Z.of_nat (length l) * M).
    { apply Z1. intros j _. apply mulb; auto. } lia. }
  destruct (accadd_spec d s1 Hd O1) as [O2 V2]. { nia. }
  cbv zeta. split; auto. split; [lia|].
  destruct (acc_shift_spec _ O2) as [O3 V3]. split; auto.
  pose proof (accv_range _ O3). split; [lia|].
  eapply (carry_bound N (accv s) (zsum (fun j => f j * g j) l + d) 0) with (v := acc_v (accadd w d s1)); auto.
  - fold M. lia.
  - destruct O2 as (O2 & _); exact O2.
  - rewrite <- V3. lia.
  - lia.
Qed.

Lemma conv_upd_beyond a b x i k : (k < i)%nat -> (i < length a)%nat -> conv (upd i x a) b k = conv a b k.
Proof.
  pose proof HB_ as HB. pose proof HB4_ as HB4.
  intros H1 H2. unfold conv. apply zsum_ext. intros j Hj. apply in_seq in Hj.
  rewrite nth_upd_other by lia. reflexivity.
Qed.

Lemma upd_last (l : list Z) x n : length l = S n -> upd n x l = firstn n l ++ [x].
Proof.
  pose proof HB_ as HB. pose proof HB4_ as HB4.
  intros L.
  replace l with (firstn n l ++ skipn n l) at 1 by apply firstn_skipn.
  rewrite upd_app_r by (rewrite firstn_length_le; lia).
  rewrite firstn_length_le by lia. rewrite Nat.sub_diag. f_equal.
  assert (LS : length (skipn n l) = 1%nat) by (rewrite skipn_length; lia).
  destruct (skipn n l) as [|e [|]]; cbn in LS; try lia. reflexivity.
Qed.

(** The Montgomery reduction: the returned digits are [(ma + q*p) / R] with an explicit
    quotient [0 <= q < R], modulo R.  [p1] holds p + 1. *)
Lemma rdc_mont_spec p1 zw n ma :
  (1 <= n)%nat -> Z.of_nat n < B -> Z.of_nat n < 2 ^ 31 -> (1 <= zw <= n)%nat ->
  length p1 = n -> digits B p1 -> p1_ok zw p1 ->
  length ma = (2 * n)%nat -> digits B ma ->
  let R := B ^ Z.of_nat n in
  exists q, 0 <= q < R /\
    length (rdc_mont w p1 zw n ma) = n /\ digits B (rdc_mont w p1 zw n ma) /\
    exists t, valB B ma + q * (valB B p1 - 1) = R * (valB B (rdc_mont w p1 zw n ma) + R * t) /\ 0 <= t.
Proof.
  pose proof HB_ as HB. pose proof HB4_ as HB4.
  intros Hn HnB Hn31 Hzw Lp Dp Zp Lm Dm R. unfold rdc_mont.
  set (N := Z.of_nat n) in *.
  assert (HR : 0 < R) by (apply Z.pow_pos_nonneg; lia).
  (* phase 1 *)
  set (step1 := fun '(s, mc) i =>
      let s := fold_left (fun s j =>
                 if Z.of_nat j <? u32 (Z.of_nat i - Z.of_nat zw + 1)
                 then muladd w (nth j mc 0) (nth (i - j) p1 0) s else s) (seq 0 i) s in
      let s := accadd w (nth i ma 0) s in
      (acc_shift s, upd i (acc_v s) mc)).
  set (T := fun (q : list Z) k => B ^ Z.of_nat k * (nth k ma 0 + conv q p1 k)).
  assert (L1 : forall i, (i <= n)%nat ->
    let '(s, mc) := fold_left step1 (seq 0 i) (mkacc 0 0 0, repeat 0 n) in
    acc_ok s /\ 0 <= accv s <= N * (B - 1) /\ length mc = n /\ digits B mc /\
    valB B (firstn i mc) + B ^ Z.of_nat i * accv s = zsum (T mc) (seq 0 i)).
  { induction i as [|i IH]; intros Hi.
    - cbn [seq fold_left]. unfold acc_ok, accv. cbn [acc_v acc_u acc_t].
      split; [lia|]. split; [nia|]. repeat split.
      + apply repeat_length.
      + apply digits_repeat0; auto.
      + change (Z.of_nat 0) with 0. unfold zsum. cbn [firstn valB fold_right]. ring.
    - rewrite seq_snoc, fold_left_app. specialize (IH ltac:(lia)).
      destruct (fold_left step1 (seq 0 i) (mkacc 0 0 0, repeat 0 n)) as [s mc].
      destruct IH as (O & A & L & D & V). cbn [fold_left Nat.add].
      destruct (rdc_column (fun j => nth j mc 0) (fun j => nth (i - j) p1 0)
        (fun j => Z.of_nat j <? u32 (Z.of_nat i - Z.of_nat zw + 1)) (seq 0 i) (nth i ma 0) n s)
        as (O1 & V1 & O2 & A2); auto.
      { intros; apply digits_nth; auto. } { intros; apply digits_nth; auto. }
      { intros j Hj Hc. apply in_seq in Hj. apply Zp. apply Z.ltb_ge in Hc. unfold u32 in Hc.
        destruct (Z_lt_le_dec (Z.of_nat i - Z.of_nat zw + 1) 0).
        - lia.
        - rewrite Z.mod_small in Hc by lia. lia. }
      { apply digits_nth; auto. } { rewrite seq_length. lia. }
      cbv zeta in O1, V1, O2, A2. unfold step1.
      set (s1 := accadd w (nth i ma 0) _) in *.
      destruct (acc_shift_spec _ O1) as [_ V2].
      split; auto. split; auto. split; [rewrite upd_length; auto|].
      split. { apply digits_upd; auto. destruct O1 as (O1 & _); exact O1. }
      rewrite firstn_upd_S by lia. rewrite valB_app, firstn_length_le by lia.
      cbn [valB]. rewrite Z.mul_0_r, Z.add_0_r.
      change (seq 0 i ++ [i]) with (seq 0 i ++ [i]).
      rewrite zsum_app. unfold zsum at 2. cbn [fold_right].
      rewrite (zsum_ext (T (upd i (acc_v s1) mc)) (T mc)).
      2:{ intros j Hj. apply in_seq in Hj. unfold T. rewrite conv_upd_beyond by lia. reflexivity. }
      rewrite <- V. unfold T.
      assert (CV : conv (upd i (acc_v s1) mc) p1 i = zsum (fun j => nth j mc 0 * nth (i - j) p1 0) (seq 0 i)).
      { unfold conv. rewrite zsum_seq_S. cbn [Nat.add]. rewrite Nat.sub_diag, (Zp 0%nat) by lia.
        rewrite Z.mul_0_r, Z.add_0_r. apply zsum_ext. intros j Hj. apply in_seq in Hj.
        rewrite nth_upd_other by lia. reflexivity. }
      rewrite CV, Nat2Z.inj_succ, Z.pow_succ_r by lia.
      replace (valB B (firstn i mc) + B ^ Z.of_nat i * acc_v s1 + B * B ^ Z.of_nat i * accv (acc_shift s1))
        with (valB B (firstn i mc) + B ^ Z.of_nat i * (acc_v s1 + B * accv (acc_shift s1))) by ring.
      rewrite <- V2, V1. ring. }
  specialize (L1 n ltac:(lia)).
  change (fold_left _ (seq 0 n) (mkacc 0 0 0, repeat 0 n))
    with (fold_left step1 (seq 0 n) (mkacc 0 0 0, repeat 0 n)).
  destruct (fold_left step1 (seq 0 n) (mkacc 0 0 0, repeat 0 n)) as [s1 q].
  destruct L1 as (O1 & A1 & Lq & Dq & V1). clear step1.
  rewrite <- Lq, firstn_all, Lq in V1.
  (* phase 2 *)
  set (step2 := fun '(s, mc, count) i =>
      let count := (if 0 <? count then u32 (count - 1) else count) in
      let s := fold_left (fun s j =>
                 if Z.of_nat j <? u32 (Z.of_nat n - count)
                 then muladd w (nth j mc 0) (nth (i - j) p1 0) s else s)
                 (seq (i - n + 1) (n - (i - n + 1))) s in
      let s := accadd w (nth i ma 0) s in
      (acc_shift s, upd (i - n) (acc_v s) mc, count)).
  assert (L2 : forall i, (i <= n - 1)%nat ->
    let '(s, mc, count) := fold_left step2 (seq n i) (s1, q, Z.of_nat zw) in
    acc_ok s /\ 0 <= accv s <= N * (B - 1) /\ length mc = n /\ digits B mc /\
    count = Z.of_nat (zw - i) /\ skipn i mc = skipn i q /\
    valB B q + R * valB B (firstn i mc) + B ^ Z.of_nat (n + i) * accv s = zsum (T q) (seq 0 (n + i))).
  { induction i as [|i IH]; intros Hi.
    - cbn [seq fold_left]. rewrite Nat.add_0_r. cbn [firstn valB].
      replace (valB B q + R * 0 + B ^ Z.of_nat n * accv s1) with (valB B q + B ^ Z.of_nat n * accv s1) by ring.
      rewrite Nat.sub_0_r. exact (conj O1 (conj A1 (conj Lq (conj Dq (conj eq_refl (conj eq_refl V1)))))).
    - rewrite seq_snoc, fold_left_app. specialize (IH ltac:(lia)).
      destruct (fold_left step2 (seq n i) (s1, q, Z.of_nat zw)) as [[s mc] count].
      destruct IH as (O & A & L & D & C & SK & V). cbn [fold_left].
      set (count' := if 0 <? count then u32 (count - 1) else count).
      assert (C' : count' = Z.of_nat (zw - S i)).
      { unfold count'. rewrite C. destruct (Z.ltb_spec 0 (Z.of_nat (zw - i))).
        - unfold u32. rewrite Z.mod_small by lia. lia.
        - lia. }
      destruct (rdc_column (fun j => nth j mc 0) (fun j => nth (n + i - j) p1 0)
        (fun j => Z.of_nat j <? u32 (Z.of_nat n - count'))
        (seq (n + i - n + 1) (n - (n + i - n + 1))) (nth (n + i) ma 0) n s)
        as (O2 & V2 & O3 & A3); auto.
      { intros; apply digits_nth; auto. } { intros; apply digits_nth; auto. }
      { intros j Hj Hc. apply in_seq in Hj. apply Zp. apply Z.ltb_ge in Hc. unfold u32 in Hc.
        rewrite C' in Hc. rewrite Z.mod_small in Hc by lia. lia. }
      { apply digits_nth; auto. } { rewrite seq_length. lia. }
      cbv zeta in O2, V2, O3, A3. unfold step2. fold count'.
      set (s2 := accadd w (nth (n + i) ma 0) _) in *.
      destruct (acc_shift_spec _ O2) as [_ V3].
      replace (n + i - n)%nat with i by lia.
      split; auto. split; auto. split; [rewrite upd_length; auto|].
      split. { apply digits_upd; auto. destruct O2 as (O2 & _); exact O2. }
      split; auto. split.
      { rewrite skipn_upd_gt by lia.
        rewrite !skipn_S_tl, SK. reflexivity. }
      rewrite firstn_upd_S by lia. rewrite valB_app, firstn_length_le by lia.
      cbn [valB]. rewrite Z.mul_0_r, Z.add_0_r.
      replace (n + S i)%nat with (S (n + i)) by lia.
      rewrite zsum_seq_S, <- V. cbn [Nat.add]. unfold T.
      assert (CV : conv q p1 (n + i) = zsum (fun j => nth j mc 0 * nth (n + i - j) p1 0)
                      (seq (n + i - n + 1) (n - (n + i - n + 1)))).
      { rewrite (conv_window q p1 n (n + i)) by (auto; lia). apply zsum_ext. intros j Hj.
        apply in_seq in Hj. f_equal.
        replace (nth j q 0) with (nth (j - i) (skipn i q) 0).
        2:{ rewrite nth_skipnZ. f_equal; lia. }
        rewrite <- SK, nth_skipnZ. f_equal; lia. }
      rewrite CV, Nat2Z.inj_succ, Z.pow_succ_r by lia.
      assert (PW : B ^ Z.of_nat (n + i) = R * B ^ Z.of_nat i).
      { unfold R, N. rewrite <- Z.pow_add_r by lia. f_equal; lia. }
      rewrite PW.
      replace (valB B q + R * (valB B (firstn i mc) + B ^ Z.of_nat i * acc_v s2) +
               B * (R * B ^ Z.of_nat i) * accv (acc_shift s2))
        with (valB B q + R * valB B (firstn i mc) + R * B ^ Z.of_nat i * (acc_v s2 + B * accv (acc_shift s2))) by ring.
      rewrite <- V3, V2. ring. }
  specialize (L2 (n - 1)%nat ltac:(lia)).
  change (fold_left _ (seq n (n - 1)) (s1, q, Z.of_nat zw))
    with (fold_left step2 (seq n (n - 1)) (s1, q, Z.of_nat zw)).
  destruct (fold_left step2 (seq n (n - 1)) (s1, q, Z.of_nat zw)) as [[s2 mc] count].
  destruct L2 as (O2 & A2 & Lc & Dc & C & SK & V2). clear step2.
  destruct (ADDC_dm 0 (acc_v s2) (nth (2 * n - 1) ma 0) ltac:(lia)) as (c & v & E & C1 & V3 & S3).
  { destruct O2 as (O2 & _); exact O2. } { apply digits_nth; auto. }
  rewrite E.
  exists (valB B q).
  split. { pose proof (valB_bound B q HB Dq) as X. rewrite Lq in X. exact X. }
  split. { rewrite upd_length; auto. }
  split. { apply digits_upd; auto. }
  replace (n + (n - 1))%nat with (2 * n - 1)%nat in V2 by lia.
  assert (TOT : zsum (T q) (seq 0 (2 * n - 1)) + B ^ Z.of_nat (2 * n - 1) * nth (2 * n - 1) ma 0
                = valB B ma + valB B q * valB B p1).
  { unfold T. rewrite (zsum_ext _ (fun k => B ^ Z.of_nat k * nth k ma 0 + B ^ Z.of_nat k * conv q p1 k))
      by (intros; ring).
    rewrite zsum_plus, conv_total by lia. rewrite (valB_sum B ma (2 * n)) by lia.
    replace (seq 0 (2 * n)) with (seq 0 (S (2 * n - 1))) by (f_equal; lia).
    rewrite zsum_seq_S. cbn [Nat.add]. ring. }
  rewrite upd_last by lia. rewrite valB_app, firstn_length_le by lia. cbn [valB].
  set (hi := acc_u s2 + B * acc_t s2).
  exists (c + hi).
  assert (AV : accv s2 = acc_v s2 + B * hi) by (unfold accv, hi; ring).
  assert (RB : R = B ^ Z.of_nat (n - 1) * B).
  { unfold R, N. replace (Z.of_nat n) with (Z.succ (Z.of_nat (n - 1))) by lia.
    rewrite Z.pow_succ_r by lia. ring. }
  assert (PW : B ^ Z.of_nat (2 * n - 1) = R * B ^ Z.of_nat (n - 1)).
  { unfold R, N. rewrite <- Z.pow_add_r by lia. f_equal; lia. }
  split.
  - replace (valB B ma + valB B q * (valB B p1 - 1)) with (valB B ma + valB B q * valB B p1 - valB B q) by ring.
    rewrite <- TOT, <- V2, AV, PW.
    assert (S4 : nth (2 * n - 1) ma 0 = v + B * c - acc_v s2) by lia. rewrite S4.
    replace (B ^ Z.of_nat (n - 1) * (v + B * 0) + R * (c + hi))
      with (B ^ Z.of_nat (n - 1) * (v + B * (c + hi))) by (rewrite RB; ring).
    replace (R * (valB B (firstn (n - 1) mc) + B ^ Z.of_nat (n - 1) * (v + B * 0) + R * (c + hi)))
      with (R * (valB B (firstn (n - 1) mc) + B ^ Z.of_nat (n - 1) * (v + B * (c + hi)))) by (rewrite RB; ring).
    ring.
  - destruct O2 as (_ & U & T'). unfold hi. nia.
Qed.

(** Exact form: for an input below R*p the result is below 2p and is congruent to
    [ma / R] modulo p. *)
Lemma rdc_mont_exact p1 zw n ma p :
  (1 <= n)%nat -> Z.of_nat n < B -> Z.of_nat n < 2 ^ 31 -> (1 <= zw <= n)%nat ->
  length p1 = n -> digits B p1 -> p1_ok zw p1 -> valB B p1 = p + 1 ->
  length ma = (2 * n)%nat -> digits B ma ->
  let R := B ^ Z.of_nat n in
  0 < p -> 2 * p <= R -> valB B ma < R * p ->
  exists q, 0 <= q < R /\
    length (rdc_mont w p1 zw n ma) = n /\ digits B (rdc_mont w p1 zw n ma) /\
    R * valB B (rdc_mont w p1 zw n ma) = valB B ma + q * p /\
    0 <= valB B (rdc_mont w p1 zw n ma) < 2 * p.
Proof.
  pose proof HB_ as HB. pose proof HB4_ as HB4.
  intros Hn HnB Hn31 Hzw Lp Dp Zp Vp Lm Dm R Pp P2 Hma.
  destruct (rdc_mont_spec p1 zw n ma Hn HnB Hn31 Hzw Lp Dp Zp Lm Dm) as (q & Hq & L & D & t & E & Ht).
  fold R in Hq, E. exists q. split; auto. split; auto. split; auto.
  rewrite Vp in E. replace (p + 1 - 1) with p in E by ring.
  assert (HR : 0 < R) by (apply Z.pow_pos_nonneg; lia).
  pose proof (valB_bound B _ HB D) as RB. rewrite L in RB. fold R in RB.
  set (r := valB B (rdc_mont w p1 zw n ma)) in *. clearbody r.
  assert (QP : q * p < R * p) by (apply Z.mul_lt_mono_pos_r; lia).
  assert (UB : R * (r + R * t) < R * (2 * p)) by lia.
  assert (UB2 : r + R * t < 2 * p) by (apply Z.mul_lt_mono_pos_l in UB; auto).
  assert (t = 0). { destruct (Z.eq_dec t 0); auto. assert (R * 1 <= R * t) by (apply Z.mul_le_mono_nonneg_l; lia). lia. }
  subst t. rewrite Z.mul_0_r, Z.add_0_r in *. lia.
Qed.

End P.
