(** The order certificate of proves_order, and orders and independence of points. *)
From Coq Require Import Znumtheory Zpow_facts.
From Verif Require Import Base Out Params Wf Fld Ops Ec Models FieldOps CurveSpec OrderSpec GroupP MultP.
Set Bullet Behavior "Strict Subproofs".

(** ** proves_order *)
Section Cert.
Variable P : params.
Hypothesis shape : par_p P + 1 = 2 ^ Z.of_nat (e2 P) * 3 ^ Z.of_nat (e3 P).
Hypothesis small : Z.of_nat (e2 P) < 2 ^ 32 /\ Z.of_nat (e3 P) < 2 ^ 32.
Lemma log_lo : 2 ^ 1054 <= 3 ^ 665. Proof. vm_compute. discriminate. Qed.
Lemma log_hi : 3 ^ 665 <= 2 ^ 1055. Proof. vm_compute. discriminate. Qed.
Lemma ul_le x : 0 <= x -> ul x <= x.
Proof. intros. unfold ul. apply Z.mod_le; lia. Qed.
Lemma ul_nn x : 0 <= ul x.
Proof. unfold ul. apply Z.mod_pos_bound. lia. Qed.
Lemma ul_id x : 0 <= x < 2 ^ 64 -> ul x = x.
Proof. intros. unfold ul. now apply Z.mod_small. Qed.
Definition bound : Z := 665 * (2 + Z.of_nat (e2 P)) + 1055 * Z.of_nat (e3 P).
Lemma proves_lt a b : 0 <= a -> 0 <= b -> proves_order P a b = true -> bound < 665 * a + 1054 * b.
Proof.
  intros Ha Hb. unfold proves_order. rewrite Z.ltb_lt. unfold bound.
  assert (L32 : 2 ^ 32 = 4294967296) by reflexivity. assert (L64 : 2 ^ 64 = 18446744073709551616) by reflexivity.
  change (1054 + 1) with 1055. change (1054 + 0) with 1054.
  rewrite (ul_id (665 * (2 + Z.of_nat (e2 P)))) by lia. rewrite (ul_id (1055 * Z.of_nat (e3 P))) by lia.
  rewrite (ul_id (_ + _)) by lia.
  pose proof (ul_le (665 * a) ltac:(lia)). pose proof (ul_le (1054 * b) ltac:(lia)).
  pose proof (ul_nn (665 * a)). pose proof (ul_nn (1054 * b)).
  pose proof (ul_le (ul (665 * a) + ul (1054 * b)) ltac:(lia)). lia.
Qed.
Lemma proves_exact a b : 0 <= a < 2 ^ 32 -> 0 <= b < 2 ^ 32 -> proves_order P a b = (bound <? 665 * a + 1054 * b).
Proof.
  intros Ha Hb. unfold proves_order, bound.
  assert (L32 : 2 ^ 32 = 4294967296) by reflexivity. assert (L64 : 2 ^ 64 = 18446744073709551616) by reflexivity.
  change (1054 + 1) with 1055. change (1054 + 0) with 1054. rewrite !ul_id; auto; try lia; rewrite ?ul_id; lia.
Qed.
Lemma bound_pow : (4 * (par_p P + 1)) ^ 665 <= 2 ^ bound.
Proof.
  rewrite shape. set (m := Z.of_nat (e2 P)). set (n := Z.of_nat (e3 P)).
  replace (4 * (2 ^ m * 3 ^ n)) with (2 ^ (2 + m) * 3 ^ n) by (rewrite Z.pow_add_r by lia; change (2 ^ 2) with 4; ring).
  rewrite Z.pow_mul_l, <- !Z.pow_mul_r by lia. unfold bound. fold m n. rewrite Z.pow_add_r by lia.
  rewrite (Z.mul_comm (2 + m)), (Z.mul_comm n).
  apply Z.mul_le_mono_nonneg_l; [apply Z.pow_nonneg; lia|].
  rewrite (Z.pow_mul_r 3), (Z.pow_mul_r 2) by lia. apply Z.pow_le_mono_l. split; [apply Z.pow_nonneg; lia|apply log_hi].
Qed.
Lemma value_pow a b : 0 <= a -> 0 <= b -> 2 ^ (665 * a + 1054 * b) <= (2 ^ a * 3 ^ b) ^ 665.
Proof.
  intros Ha Hb. rewrite Z.pow_mul_l, <- !Z.pow_mul_r by lia. rewrite Z.pow_add_r by lia.
  rewrite (Z.mul_comm a), (Z.mul_comm b). apply Z.mul_le_mono_nonneg_l; [apply Z.pow_nonneg; lia|].
  rewrite (Z.pow_mul_r 3), (Z.pow_mul_r 2) by lia. apply Z.pow_le_mono_l. split; [apply Z.pow_nonneg; lia|apply log_lo].
Qed.
Lemma proves_sound a b : 0 <= a -> 0 <= b -> proves_order P a b = true -> 4 * (par_p P + 1) < 2 ^ a * 3 ^ b.
Proof.
  intros Ha Hb H. apply proves_lt in H; auto.
  apply Z.nle_gt. intros C.
  assert (N : 0 <= 2 ^ a * 3 ^ b) by (apply Z.mul_nonneg_nonneg; apply Z.pow_nonneg; clear; lia).
  assert (B0 : 0 <= bound) by (unfold bound; clear; lia).
  assert (S : 2 ^ bound < 2 ^ (665 * a + 1054 * b)) by (apply Z.pow_lt_mono_r; clear - H B0 Ha Hb; lia).
  apply (Z.lt_irrefl (2 ^ bound)). apply (Z.lt_le_trans _ _ _ S).
  apply (Z.le_trans _ _ _ (value_pow a b Ha Hb)). refine (Z.le_trans _ _ _ _ bound_pow).
  apply Z.pow_le_mono_l. exact (conj N C).
Qed.
Lemma hasse_order a b n : 0 <= a <= 2 * Z.of_nat (e2 P) -> 0 <= b <= 2 * Z.of_nat (e3 P) ->
  4 * (par_p P + 1) < 2 ^ a * 3 ^ b -> hasse (par_p P) n -> (2 ^ a * 3 ^ b | n) -> n = (par_p P + 1) * (par_p P + 1).
Proof.
  intros Ha Hb L H D. unfold hasse in H. set (d := 2 ^ a * 3 ^ b) in *.
  assert (D2 : (d | (par_p P + 1) * (par_p P + 1))).
  { rewrite shape. unfold d. set (m := Z.of_nat (e2 P)) in *. set (k := Z.of_nat (e3 P)) in *.
    exists (2 ^ (2 * m - a) * 3 ^ (2 * k - b)).
    transitivity ((2 ^ (2 * m - a) * 2 ^ a) * (3 ^ (2 * k - b) * 3 ^ b)); [|ring].
    rewrite <- !Z.pow_add_r by lia. replace (2 * m - a + a) with (m + m) by lia. replace (2 * k - b + b) with (k + k) by lia.
    rewrite !Z.pow_add_r by lia. ring. }
  set (p := par_p P) in *. destruct D as [u ->], D2 as [v E]. clear shape.
  assert (0 < d) by (unfold d; apply Z.mul_pos_pos; apply Z.pow_pos_nonneg; lia).
  assert (Hp : 0 <= p) by lia.
  assert (E' : (p + 1) * (p + 1) = p * p + 2 * p + 1) by ring.
  assert (Z.abs ((u - v) * d) < d).
  { rewrite Z.mul_sub_distr_r. lia. }
  rewrite Z.abs_mul, (Z.abs_eq d) in * by lia.
  assert (Z.abs (u - v) = 0) by (apply Z.le_antisymm; [|lia]; apply Z.lt_succ_r; apply (Z.mul_lt_mono_pos_r d); lia).
  replace u with v by lia. lia.
Qed.
End Cert.

(** ** Orders *)
Lemma nat_coprime m n : rel_prime (Z.of_nat m) (Z.of_nat n) -> Nat.gcd m n = 1%nat.
Proof.
  intros R. destruct (Nat.gcd_divide_l m n) as [u Eu], (Nat.gcd_divide_r m n) as [v Ev]. set (g := Nat.gcd m n) in *.
  assert (D : (Z.of_nat g | 1)).
  { apply R; [exists (Z.of_nat u)|exists (Z.of_nat v)]; rewrite <- Nat2Z.inj_mul; congruence. }
  apply Z.divide_1_r_nonneg in D; lia.
Qed.
Lemma val_split (l n : nat) : (2 <= l)%nat -> (1 <= n)%nat -> exists s u, n = (l ^ s * u)%nat /\ (u mod l <> 0)%nat.
Proof.
  intros Hl. induction n as [n IH] using (well_founded_induction lt_wf). intros Hn.
  destruct (Nat.eq_dec (n mod l) 0) as [E|N].
  - apply Nat.mod_divides in E; [|lia]. destruct E as [q E]. destruct (IH q) as (s & u & Es & Eu); [nia|nia|].
    exists (S s), u. split; auto. rewrite E, Es. cbn [Nat.pow]. ring.
  - exists 0%nat, n. cbn. split; auto; lia.
Qed.

Section Ord.
Variable F : fld.
Hypothesis two : (kadd k1 k1 : F) <> k0.
Variables A B : F.
Hypothesis HA : (A * A <> 4)%F.
Hypothesis HB : B <> k0.
Local Notation on := (on A B). Local Notation padd := (padd A B). Local Notation pmul := (pmul A B).
Notation pmul_on := (pmul_on F two A B HA HB). Notation pmul_mul := (pmul_mul F two A B HA HB).
Notation pmul_add := (pmul_add F two A B HA HB).
Notation padd_on := (padd_on F two A B HA HB). Notation padd_comm := (padd_comm F two A B HA HB).
Notation padd_assoc := (padd_assoc F two A B HA HB).
Implicit Types M N : point F.

Lemma pmul_swap m n M : on M -> pmul m (pmul n M) = pmul n (pmul m M).
Proof. intros H. rewrite <- !pmul_mul by auto. f_equal. lia. Qed.
Lemma pmul_1 M : pmul 1 M = M.
Proof. cbn. destruct M; reflexivity. Qed.
Lemma coprime_kill m n M : on M -> Nat.gcd m n = 1%nat -> pmul m M = Inf -> pmul n M = Inf -> M = Inf.
Proof.
  intros H G Em En. destruct (Nat.eq_dec m 0) as [->|Nm].
  - cbn in G. subst n. now rewrite pmul_1 in En.
  - destruct (Nat.gcd_bezout_pos m n ltac:(lia)) as (a & b & E). rewrite G in E.
    assert (X : pmul (a * m) M = pmul (1 + b * n) M) by now rewrite E.
    rewrite pmul_add, !pmul_mul, Em, En, !(pmul_inf F A B), pmul_1 in X by auto.
    destruct M; auto.
Qed.
Lemma kill_mod l u M : on M -> (l <> 0)%nat -> pmul l M = Inf -> pmul u M = pmul (u mod l) M.
Proof.
  intros H Nl El. rewrite (Nat.div_mod u l) at 1 by auto. rewrite pmul_add, Nat.mul_comm, pmul_mul, El, (pmul_inf F A B) by auto. reflexivity.
Qed.
Lemma has_order_pow l a M : prime (Z.of_nat l) -> on M -> pmul (l ^ a) M = Inf ->
  ((1 <= a)%nat -> pmul (l ^ (a - 1)) M <> Inf) -> has_order A B M (l ^ a).
Proof.
  intros Pl H Ka Na n. pose proof (prime_ge_2 _ Pl) as L2. split.
  2:{ intros [q ->]. rewrite pmul_mul, Ka, (pmul_inf F A B); auto. }
  intros Kn. destruct (Nat.eq_dec n 0) as [->|Nn]; [apply Nat.divide_0_r|].
  destruct (val_split l n) as (s & u & -> & Hu); try lia.
  destruct (le_lt_dec a s) as [Le|Lt].
  - replace s with (a + (s - a))%nat by lia. rewrite Nat.pow_add_r, <- Nat.mul_assoc. apply Nat.divide_factor_l.
  - exfalso. apply Na; [lia|]. apply (coprime_kill l u); auto using pmul_on.
    + assert (D : Nat.divide (Nat.gcd l u) l) by apply Nat.gcd_divide_l.
      assert (D2 : Nat.divide (Nat.gcd l u) u) by apply Nat.gcd_divide_r.
      set (g := Nat.gcd l u) in *.
      assert (Dz : (Z.of_nat g | Z.of_nat l)) by (destruct D as [q Eq]; exists (Z.of_nat q); rewrite <- Nat2Z.inj_mul; congruence).
      apply (prime_divisors _ Pl) in Dz. destruct Dz as [E|[E|[E|E]]]; try lia.
      exfalso. apply Hu. apply Nat2Z.inj in E. rewrite <- E. apply Nat.mod_divide; auto; lia.
    + rewrite <- pmul_mul by auto. replace (l * l ^ (a - 1))%nat with (l ^ a)%nat; auto.
      replace a with (S (a - 1)) at 1 by lia. reflexivity.
    + rewrite <- pmul_mul by auto. replace (u * l ^ (a - 1))%nat with (l ^ (a - 1 - s) * (l ^ s * u))%nat.
      * rewrite pmul_mul, Kn, (pmul_inf F A B); auto.
      * replace (a - 1)%nat with (a - 1 - s + s)%nat at 2 by lia. rewrite Nat.pow_add_r. ring.
Qed.

(** Same coordinate *)
Definition samex M N : Prop := N = M \/ N = neg M.
Lemma unit_mult l u T : l = 2%nat \/ l = 3%nat -> on T -> pmul l T = Inf -> (u mod l <> 0)%nat -> samex T (pmul u T).
Proof.
  intros Hl H K Hu. rewrite (kill_mod l) by (auto; lia).
  pose proof (Nat.mod_upper_bound u l ltac:(lia)).
  assert (D : (u mod l = 1 \/ (l = 3 /\ u mod l = 2))%nat) by lia. destruct D as [E|[-> E]]; rewrite E.
  - left. apply pmul_1.
  - right. assert (X : padd T (pmul 2 T) = Inf) by exact K.
    apply (padd_opp_eq F two A B HA HB) in X; auto using pmul_on.
Qed.
Lemma neg_samex M N : samex M N -> samex M (neg N).
Proof. intros [->| ->]; [right|left]; auto. apply neg_neg. Qed.

Lemma indep_pow l a b M N : l = 2%nat \/ l = 3%nat -> on M -> on N ->
  has_order A B M (l ^ a) -> has_order A B N (l ^ b) ->
  ((1 <= a)%nat -> (1 <= b)%nat -> ~ samex (pmul (l ^ (a - 1)) M) (pmul (l ^ (b - 1)) N)) ->
  forall i j, padd (pmul i M) (pmul j N) = Inf -> Nat.divide (l ^ a) i /\ Nat.divide (l ^ b) j.
Proof.
  intros Hl HM HN OM ON D i j E.
  assert (Ej : pmul j N = neg (pmul i M)) by (apply (padd_opp_eq F two A B HA HB); auto using pmul_on).
  destruct (Nat.eq_dec i 0) as [->|Ni].
  { split; [apply Nat.divide_0_r|]. apply ON. rewrite Ej. reflexivity. }
  destruct (Nat.eq_dec j 0) as [->|Nj].
  { split; [|apply Nat.divide_0_r]. apply OM. apply (neg_inf_iff F). rewrite <- Ej. reflexivity. }
  destruct (val_split l i) as (s & u & Ei & Hu); try lia. destruct (val_split l j) as (t & w & Ejj & Hw); try lia.
  assert (KK : forall n, pmul n (pmul i M) = Inf <-> pmul n (pmul j N) = Inf).
  { intros n. rewrite Ej, (pmul_neg F two A B HA HB) by auto using pmul_on. now rewrite (neg_inf_iff F). }
  assert (cop : forall x, (x mod l <> 0)%nat -> ~ Nat.divide l x) by (intros x Hx Dx; apply Nat.mod_divide in Dx; lia).
  assert (killM : forall n, (s <= a)%nat -> (pmul (l ^ n) (pmul i M) = Inf <-> (a - s <= n)%nat)).
  { intros n Hs. rewrite <- pmul_mul by auto. rewrite (OM (l ^ n * i)%nat). rewrite Ei. split.
    - intros Dv. destruct (le_lt_dec (a - s) n); auto. exfalso. apply (cop u Hu).
      replace (l ^ n * (l ^ s * u))%nat with (u * l ^ (n + s))%nat in Dv by (rewrite Nat.pow_add_r; ring).
      replace a with ((a - s - n - 1) + 1 + (n + s))%nat in Dv by lia. rewrite (Nat.pow_add_r l _ (n + s)) in Dv.
      apply Nat.mul_divide_cancel_r in Dv; [|apply Nat.pow_nonzero; lia].
      rewrite Nat.pow_add_r, Nat.pow_1_r in Dv. destruct Dv as [q Eq]. exists (q * l ^ (a - s - n - 1))%nat. rewrite Eq. ring.
    - intros Hn. exists (l ^ (n + s - a) * u)%nat. transitivity (l ^ (n + s) * u)%nat; [rewrite Nat.pow_add_r; ring|].
      replace (n + s)%nat with (n + s - a + a)%nat at 1 by lia. rewrite Nat.pow_add_r. ring. }
  assert (killN : forall n, (t <= b)%nat -> (pmul (l ^ n) (pmul j N) = Inf <-> (b - t <= n)%nat)).
  { intros n Hs. rewrite <- pmul_mul by auto. rewrite (ON (l ^ n * j)%nat). rewrite Ejj. split.
    - intros Dv. destruct (le_lt_dec (b - t) n); auto. exfalso. apply (cop w Hw).
      replace (l ^ n * (l ^ t * w))%nat with (w * l ^ (n + t))%nat in Dv by (rewrite Nat.pow_add_r; ring).
      replace b with ((b - t - n - 1) + 1 + (n + t))%nat in Dv by lia. rewrite (Nat.pow_add_r l _ (n + t)) in Dv.
      apply Nat.mul_divide_cancel_r in Dv; [|apply Nat.pow_nonzero; lia].
      rewrite Nat.pow_add_r, Nat.pow_1_r in Dv. destruct Dv as [q Eq]. exists (q * l ^ (b - t - n - 1))%nat. rewrite Eq. ring.
    - intros Hn. exists (l ^ (n + t - b) * w)%nat. transitivity (l ^ (n + t) * w)%nat; [rewrite Nat.pow_add_r; ring|].
      replace (n + t)%nat with (n + t - b + b)%nat at 1 by lia. rewrite Nat.pow_add_r. ring. }
  assert (dM : (a <= s)%nat -> Nat.divide (l ^ a) i).
  { intros Le. rewrite Ei. exists (l ^ (s - a) * u)%nat. replace s with (s - a + a)%nat at 1 by lia. rewrite Nat.pow_add_r. ring. }
  assert (dN : (b <= t)%nat -> Nat.divide (l ^ b) j).
  { intros Le. rewrite Ejj. exists (l ^ (t - b) * w)%nat. replace t with (t - b + b)%nat at 1 by lia. rewrite Nat.pow_add_r. ring. }
  destruct (le_lt_dec a s) as [La|La].
  { split; auto. apply ON. rewrite Ej. apply (neg_inf_iff F). apply OM. auto. }
  destruct (le_lt_dec b t) as [Lb|Lb].
  { split; auto. apply OM. apply (neg_inf_iff F). rewrite <- Ej. apply ON. auto. }
  exfalso.
  assert (Q : (a - s = b - t)%nat).
  { assert (X1 : (b - t <= a - s)%nat) by (apply (killN (a - s)%nat); [lia|]; apply KK; apply (killM (a - s)%nat); lia).
    assert (X2 : (a - s <= b - t)%nat) by (apply (killM (b - t)%nat); [lia|]; apply KK; apply (killN (b - t)%nat); lia). lia. }
  apply D; try lia. set (T1 := pmul (l ^ (a - 1)) M). set (T2 := pmul (l ^ (b - 1)) N).
  assert (K1 : pmul l T1 = Inf).
  { unfold T1. rewrite <- pmul_mul by auto. apply OM. replace a with (S (a - 1)) at 1 by lia. apply Nat.divide_refl. }
  assert (K2 : pmul l T2 = Inf).
  { unfold T2. rewrite <- pmul_mul by auto. apply ON. replace b with (S (b - 1)) at 1 by lia. apply Nat.divide_refl. }
  assert (U1 : pmul u T1 = pmul (l ^ (a - 1 - s)) (pmul i M)).
  { unfold T1. rewrite <- !pmul_mul by auto. f_equal. rewrite Ei. replace (a - 1)%nat with (a - 1 - s + s)%nat at 1 by lia. rewrite Nat.pow_add_r. ring. }
  assert (U2 : pmul w T2 = pmul (l ^ (b - 1 - t)) (pmul j N)).
  { unfold T2. rewrite <- !pmul_mul by auto. f_equal. rewrite Ejj. replace (b - 1)%nat with (b - 1 - t + t)%nat at 1 by lia. rewrite Nat.pow_add_r. ring. }
  rewrite Ej, (pmul_neg F two A B HA HB) in U2 by auto using pmul_on. replace (b - 1 - t)%nat with (a - 1 - s)%nat in U2 by lia.
  rewrite <- U1 in U2.
  pose proof (unit_mult l u T1 Hl (pmul_on _ _ HM) K1 Hu) as S1. pose proof (unit_mult l w T2 Hl (pmul_on _ _ HN) K2 Hw) as S2.
  rewrite U2 in S2. destruct S1 as [S1|S1]; rewrite S1 in S2; destruct S2 as [S2|S2].
  - right. rewrite <- S2. reflexivity.
  - left. rewrite <- (neg_neg F T2), <- S2. apply neg_neg.
  - left. rewrite neg_neg in S2. auto.
  - right. rewrite neg_neg in S2. rewrite S2. symmetry. apply neg_neg.
Qed.

Lemma indep4 a b c d M1 M2 M3 M4 : on M1 -> on M2 -> on M3 -> on M4 ->
  has_order A B M1 (2 ^ a) -> has_order A B M2 (2 ^ b) -> has_order A B M3 (3 ^ c) -> has_order A B M4 (3 ^ d) ->
  ((1 <= a)%nat -> (1 <= b)%nat -> ~ samex (pmul (2 ^ (a - 1)) M1) (pmul (2 ^ (b - 1)) M2)) ->
  ((1 <= c)%nat -> (1 <= d)%nat -> ~ samex (pmul (3 ^ (c - 1)) M3) (pmul (3 ^ (d - 1)) M4)) ->
  independent4 A B M1 M2 M3 M4 (2 ^ a) (2 ^ b) (3 ^ c) (3 ^ d).
Proof.
  intros H1 H2 H3 H4 O1 O2 O3 O4 D2 D3 n1 n2 n3 n4 E.
  set (X := padd (pmul n1 M1) (pmul n2 M2)) in *. set (Y := padd (pmul n3 M3) (pmul n4 M4)) in *.
  assert (HX : on X) by (unfold X; auto using padd_on, pmul_on).
  assert (HY : on Y) by (unfold Y; auto using padd_on, pmul_on).
  assert (KX : pmul (2 ^ (a + b)) X = Inf).
  { unfold X. rewrite (pmul_padd F two A B HA HB) by auto using pmul_on. rewrite <- !pmul_mul by auto.
    replace (pmul (2 ^ (a + b) * n1) M1) with (@Inf F); [replace (pmul (2 ^ (a + b) * n2) M2) with (@Inf F); auto|].
    - symmetry. apply O2. exists (2 ^ a * n2)%nat. rewrite Nat.pow_add_r. ring.
    - symmetry. apply O1. exists (2 ^ b * n1)%nat. rewrite Nat.pow_add_r. ring. }
  assert (KY : pmul (3 ^ (c + d)) Y = Inf).
  { unfold Y. rewrite (pmul_padd F two A B HA HB) by auto using pmul_on. rewrite <- !pmul_mul by auto.
    replace (pmul (3 ^ (c + d) * n3) M3) with (@Inf F); [replace (pmul (3 ^ (c + d) * n4) M4) with (@Inf F); auto|].
    - symmetry. apply O4. exists (3 ^ c * n4)%nat. rewrite Nat.pow_add_r. ring.
    - symmetry. apply O3. exists (3 ^ d * n3)%nat. rewrite Nat.pow_add_r. ring. }
  assert (EY : Y = neg X) by (apply (padd_opp_eq F two A B HA HB); auto).
  assert (ZX : X = Inf).
  { apply (coprime_kill (2 ^ (a + b)) (3 ^ (c + d))); auto.
    - assert (R : rel_prime (2 ^ Z.of_nat (a + b)) (3 ^ Z.of_nat (c + d))) by (apply rel_prime_Zpower; try lia; apply Zgcd_1_rel_prime; reflexivity).
      apply nat_coprime. rewrite !Nat2Z.inj_pow. exact R.
    - apply (neg_inf_iff F). rewrite <- (pmul_neg F two A B HA HB) by auto. rewrite <- EY. exact KY. }
  assert (ZY : Y = Inf) by (rewrite EY, ZX; reflexivity).
  destruct (indep_pow 2 a b M1 M2 ltac:(auto) H1 H2 O1 O2 D2 n1 n2 ZX).
  destruct (indep_pow 3 c d M3 M4 ltac:(auto) H3 H4 O3 O4 D3 n3 n4 ZY). auto.
Qed.
End Ord.
