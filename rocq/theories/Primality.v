(** A primality criterion for p with p + 1 = 2^a 3^b, by the order of a Gaussian integer
    modulo a hypothetical divisor, and its evaluation with Bignums. *)
From Coq Require Import Znumtheory Zpow_facts.
From Verif Require Import Base.
Set Bullet Behavior "Strict Subproofs".

Definition cx : Type := Z * Z.
Definition cmul (x y : cx) : cx := (fst x * fst y - snd x * snd y, fst x * snd y + snd x * fst y).
Fixpoint cpow (g : cx) (k : nat) : cx := match k with O => (1, 0) | S j => cmul g (cpow g j) end.
Definition ceq (q : Z) (x y : cx) : Prop := (q | fst x - fst y) /\ (q | snd x - snd y).

Lemma ceq_refl q x : ceq q x x.
Proof. split; rewrite Z.sub_diag; apply Z.divide_0_r. Qed.
Lemma ceq_sym q x y : ceq q x y -> ceq q y x.
Proof. intros [[a A] [b B]]; split; [exists (-a)|exists (-b)]; lia. Qed.
Lemma ceq_trans q x y z : ceq q x y -> ceq q y z -> ceq q x z.
Proof. intros [[a A] [b B]] [[c C] [d D]]; split; [exists (a + c)|exists (b + d)]; lia. Qed.
Lemma ceq_mul q x x' y y' : ceq q x x' -> ceq q y y' -> ceq q (cmul x y) (cmul x' y').
Proof.
  destruct x as [x1 x2], x' as [x1' x2'], y as [y1 y2], y' as [y1' y2'].
  unfold ceq, cmul; cbn [fst snd]. intros [[a A] [b B]] [[c C] [d D]].
  assert (x1 = x1' + a * q) by lia. assert (x2 = x2' + b * q) by lia.
  assert (y1 = y1' + c * q) by lia. assert (y2 = y2' + d * q) by lia. subst. split.
  - exists (x1' * c + a * y1' + a * c * q - x2' * d - b * y2' - b * d * q). ring.
  - exists (x1' * d + a * y2' + a * d * q + x2' * c + b * y1' + b * c * q). ring.
Qed.
Lemma ceq_div q p x y : (q | p) -> ceq p x y -> ceq q x y.
Proof. intros H [A B]; split; eapply Z.divide_trans; eauto. Qed.

Lemma cmul_1_l x : cmul (1, 0) x = x.
Proof. destruct x; unfold cmul; cbn [fst snd]; f_equal; ring. Qed.
Lemma cmul_comm x y : cmul x y = cmul y x.
Proof. destruct x, y; unfold cmul; cbn [fst snd]; f_equal; ring. Qed.
Lemma cmul_assoc x y z : cmul x (cmul y z) = cmul (cmul x y) z.
Proof. destruct x, y, z; unfold cmul; cbn [fst snd]; f_equal; ring. Qed.
Lemma cpow_add g a b : cpow g (a + b) = cmul (cpow g a) (cpow g b).
Proof.
  induction a as [|a IH]; cbn [cpow Nat.add]; [now rewrite cmul_1_l|]. rewrite IH. apply cmul_assoc.
Qed.
Lemma cpow_1 b : cpow (1, 0) b = (1, 0).
Proof. induction b as [|b IH]; [reflexivity|]. cbn [cpow]. rewrite IH. reflexivity. Qed.
Lemma cpow_mul g a b : cpow g (a * b) = cpow (cpow g a) b.
Proof.
  induction b as [|b IH]; [now rewrite Nat.mul_0_r|].
  rewrite Nat.mul_succ_r, Nat.add_comm, cpow_add, IH. reflexivity.
Qed.
Lemma ceq_pow q x y k : ceq q x y -> ceq q (cpow x k) (cpow y k).
Proof. intros H; induction k as [|k IH]; cbn [cpow]; [apply ceq_refl|apply ceq_mul; auto]. Qed.
Lemma ceq_pow1 q x k : ceq q x (1, 0) -> ceq q (cpow x k) (1, 0).
Proof. intros H. rewrite <- (cpow_1 k). apply ceq_pow; auto. Qed.

Definition cred (q : Z) (x : cx) : cx := (fst x mod q, snd x mod q).
Lemma cred_eq q x y : 0 < q -> cred q x = cred q y -> ceq q x y.
Proof.
  intros Hq H. inversion H as [[A B]]. split; apply Z.mod_divide; try lia;
  rewrite Zminus_mod, ?A, ?B, Z.sub_diag; apply Z.mod_0_l; lia.
Qed.

Definition zrange (q : Z) : list Z := map Z.of_nat (seq 0 (Z.to_nat q)).
Lemma in_zrange q x : 0 <= x < q -> In x (zrange q).
Proof. intros H. apply in_map_iff. exists (Z.to_nat x). split; [lia|]. apply in_seq. lia. Qed.

Lemma two_three a b e : 1 < e -> (e | 2 ^ a * 3 ^ b) -> 0 <= a -> 0 <= b -> (2 | e) \/ (3 | e).
Proof.
  intros He Hd Ha Hb.
  destruct (Zdivide_dec 2 e) as [|N2]; [left; auto|]. destruct (Zdivide_dec 3 e) as [|N3]; [right; auto|].
  exfalso.
  assert (R2 : rel_prime e (2 ^ a)).
  { apply rel_prime_Zpower_r; auto. apply rel_prime_sym, prime_rel_prime; auto using prime_2. }
  assert (R3 : rel_prime e (3 ^ b)).
  { apply rel_prime_Zpower_r; auto. apply rel_prime_sym, prime_rel_prime; auto using prime_3. }
  assert (D : (e | 3 ^ b)) by (apply (Gauss e (2 ^ a)); auto).
  assert (D1 : (e | 1)).
  { apply (Gauss e (3 ^ b)); auto. rewrite Z.mul_1_r. auto. }
  apply Z.divide_pos_le in D1; lia.
Qed.

Section Crit.
Variables (p : Z) (a b : Z) (g : cx) (N : nat).
Hypothesis Ha : 1 <= a.
Hypothesis Hb : 1 <= b.
Hypothesis Hp : 1 < p.
Hypothesis HN : Z.of_nat N = p + 1.
Hypothesis HF : p + 1 = 2 ^ a * 3 ^ b.
Hypothesis G1 : ceq p (cpow g N) (1, 0).
Definition cnorm1 (x : cx) : Z := (fst x - 1) * (fst x - 1) + snd x * snd x.
Hypothesis G2 : Z.gcd (cnorm1 (cpow g (N / 2))) p = 1.
Hypothesis G3 : Z.gcd (cnorm1 (cpow g (N / 3))) p = 1.

Lemma not_one q k : 1 < q -> (q | p) -> Z.gcd (cnorm1 (cpow g k)) p = 1 -> ~ ceq q (cpow g k) (1, 0).
Proof.
  intros Hq Hd HG [A B]. cbn [fst snd] in A, B. rewrite Z.sub_0_r in B.
  assert (q | cnorm1 (cpow g k)).
  { apply Z.divide_add_r; apply Z.divide_mul_l; auto. }
  pose proof (Z.gcd_greatest _ _ _ H Hd) as D. rewrite HG in D. apply Z.divide_pos_le in D; lia.
Qed.

Lemma no_small_power q k : 1 < q -> (q | p) -> (0 < k < N)%nat -> ~ ceq q (cpow g k) (1, 0).
Proof.
  intros Hq Hd Hk HE.
  assert (HE2 : ceq q (cpow g N) (1, 0)) by (eapply ceq_div; eauto).
  set (d := Nat.gcd k N).
  assert (HD : ceq q (cpow g d) (1, 0)).
  { destruct (Nat.gcd_bezout_pos k N ltac:(lia)) as (u & v & E). fold d in E.
    assert (E1 : ceq q (cpow g (u * k)) (1, 0)).
    { rewrite Nat.mul_comm, cpow_mul. apply ceq_pow1; auto. }
    rewrite E, cpow_add in E1.
    assert (E2 : ceq q (cpow g (v * N)) (1, 0)).
    { rewrite Nat.mul_comm, cpow_mul. apply ceq_pow1; auto. }
    eapply ceq_trans; [|exact E1]. apply ceq_sym.
    rewrite <- (cmul_1_l (cpow g d)) at 2. rewrite (cmul_comm (1, 0)).
    apply ceq_mul; auto using ceq_refl. }
  destruct (Nat.gcd_divide_r k N) as [e Ee]. fold d in Ee.
  destruct (Nat.gcd_divide_l k N) as [f Ef]. fold d in Ef.
  assert (Hd0 : (0 < d)%nat) by (destruct d; lia).
  assert (He : (1 < e)%nat) by (destruct e as [|[|e]]; destruct f; nia).
  destruct (two_three a b (Z.of_nat e)) as [[t T]|[t T]]; try lia.
  - exists (Z.of_nat d). rewrite <- HF, <- HN. lia.
  - assert (N / 2 = d * Z.to_nat t)%nat.
    { symmetry; apply Nat.div_unique with (r := O); [lia|]. nia. }
    apply (not_one q (N / 2)); auto. rewrite H, cpow_mul. apply ceq_pow1; auto.
  - assert (N / 3 = d * Z.to_nat t)%nat.
    { symmetry; apply Nat.div_unique with (r := O); [lia|]. nia. }
    apply (not_one q (N / 3)); auto. rewrite H, cpow_mul. apply ceq_pow1; auto.
Qed.

Lemma cancel q i j : 1 < q -> (q | p) -> (i <= j < N)%nat ->
  ceq q (cpow g i) (cpow g j) -> ceq q (cpow g (j - i)) (1, 0).
Proof.
  intros Hq Hd Hij HE.
  assert (HE2 : ceq q (cpow g N) (1, 0)) by (eapply ceq_div; eauto).
  assert (H1 : ceq q (cmul (cpow g (N - i)) (cpow g i)) (cmul (cpow g (N - i)) (cpow g j))).
  { apply ceq_mul; auto using ceq_refl. }
  rewrite <- !cpow_add in H1. replace (N - i + i)%nat with N in H1 by lia.
  replace (N - i + j)%nat with ((j - i) + N)%nat in H1 by lia. rewrite cpow_add in H1.
  eapply ceq_trans; [|eapply ceq_trans; [apply ceq_sym; exact H1|exact HE2]].
  rewrite <- (cmul_1_l (cpow g (j - i))) at 1. rewrite (cmul_comm (1, 0)).
  apply ceq_mul; auto using ceq_refl, ceq_sym.
Qed.

Lemma no_small_divisor q : 1 < q -> (q | p) -> ~ q * q <= p.
Proof.
  intros Hq Hd Hle.
  set (l := map (fun k => cred q (cpow g k)) (seq 0 N)).
  assert (ND : NoDup l).
  { unfold l.
    assert (NoDup (seq 0 N)) by apply seq_NoDup.
    assert (forall i j, In i (seq 0 N) -> In j (seq 0 N) ->
              cred q (cpow g i) = cred q (cpow g j) -> i = j) as INJ.
    { assert (forall i j, (i <= j < N)%nat -> cred q (cpow g i) = cred q (cpow g j) -> i = j) as X.
      { intros i j Hij E. apply cred_eq in E; [|lia]. apply cancel in E; auto.
        destruct (Nat.eq_dec i j); auto. exfalso. apply (no_small_power q (j - i)); auto. lia. }
      intros i j Hi Hj E. apply in_seq in Hi, Hj.
      destruct (Nat.le_ge_cases i j); [apply X; auto; lia|symmetry; apply X; auto; lia]. }
    clear - H INJ. induction (seq 0 N) as [|x s IH]; [constructor|].
    inversion H; subst. cbn [map]. constructor.
    - intros C. apply in_map_iff in C as (y & E & Hy).
      apply INJ in E; [subst; auto|right; auto|left; auto].
    - apply IH; auto. intros i j Hi Hj. apply INJ; right; auto. }
  assert (IN : incl l (list_prod (zrange q) (zrange q))).
  { intros x Hx. apply in_map_iff in Hx as (k & <- & _).
    apply in_prod; apply in_zrange; apply Z.mod_pos_bound; lia. }
  pose proof (NoDup_incl_length ND IN) as L.
  assert (LZ : length (zrange q) = Z.to_nat q) by (unfold zrange; now rewrite map_length, seq_length).
  assert (L2 : length (list_prod (zrange q) (zrange q)) = (Z.to_nat q * Z.to_nat q)%nat)
    by now rewrite prod_length, LZ.
  unfold cx in L. rewrite L2 in L. unfold l in L. rewrite map_length, seq_length in L. nia.
Qed.

Theorem prime_criterion : prime p.
Proof.
  destruct (prime_dec p) as [|NP]; auto. exfalso.
  destruct (not_prime_divide p Hp NP) as (q & Hq & r & Hr).
  destruct (Z.le_gt_cases (q * q) p).
  - apply (no_small_divisor q); auto; [lia|]. exists r; auto.
  - apply (no_small_divisor r); [nia| |nia]. exists q. lia.
Qed.
End Crit.

(** Evaluation of the criterion. *)
From Bignums Require Import BigZ.
Open Scope Z_scope.

Definition bcx : Type := bigZ * bigZ.
Definition bval (x : bcx) : cx := (BigZ.to_Z (fst x), BigZ.to_Z (snd x)).
Definition bcmul (p : bigZ) (x y : bcx) : bcx :=
  (BigZ.modulo (BigZ.sub (BigZ.mul (fst x) (fst y)) (BigZ.mul (snd x) (snd y))) p,
   BigZ.modulo (BigZ.add (BigZ.mul (fst x) (snd y)) (BigZ.mul (snd x) (fst y))) p).
Fixpoint bsqs (p : bigZ) (k : nat) (x : bcx) : bcx :=
  match k with O => x | S j => bsqs p j (bcmul p x x) end.
Fixpoint bcubes (p : bigZ) (k : nat) (x : bcx) : bcx :=
  match k with O => x | S j => bcubes p j (bcmul p x (bcmul p x x)) end.
Definition bnorm1 (p : bigZ) (x : bcx) : bigZ :=
  BigZ.add (BigZ.mul (BigZ.sub (fst x) BigZ.one) (BigZ.sub (fst x) BigZ.one)) (BigZ.mul (snd x) (snd x)).
Definition bcheck (p : bigZ) (a b : nat) (g : bcx) : bool :=
  let h := bcubes p b (bsqs p a g) in
  let h2 := bcubes p b (bsqs p (a - 1) g) in
  let h3 := bcubes p (b - 1) (bsqs p a g) in
  BigZ.eqb (fst h) BigZ.one && BigZ.eqb (snd h) BigZ.zero
  && BigZ.eqb (BigZ.gcd (bnorm1 p h2) p) BigZ.one
  && BigZ.eqb (BigZ.gcd (bnorm1 p h3) p) BigZ.one.

Lemma bcmul_spec p x y : BigZ.to_Z p <> 0 -> ceq (BigZ.to_Z p) (bval (bcmul p x y)) (cmul (bval x) (bval y)).
Proof.
  intros Hp. unfold bval, bcmul, cmul, ceq; cbn [fst snd].
  rewrite !BigZ.spec_modulo, BigZ.spec_sub, BigZ.spec_add, !BigZ.spec_mul.
  split; apply Z.mod_divide; auto; rewrite Zminus_mod, Zmod_mod, Z.sub_diag; apply Z.mod_0_l; auto.
Qed.
Lemma bsqs_spec p k : BigZ.to_Z p <> 0 -> forall x,
  ceq (BigZ.to_Z p) (bval (bsqs p k x)) (cpow (bval x) (2 ^ k)).
Proof.
  intros Hp. induction k as [|k IH]; intros x; cbn [bsqs].
  - cbn. rewrite cmul_comm, cmul_1_l. apply ceq_refl.
  - eapply ceq_trans; [apply IH|]. rewrite Nat.pow_succ_r', cpow_mul. apply ceq_pow.
    eapply ceq_trans; [apply bcmul_spec; auto|]. cbn [cpow].
    rewrite (cmul_comm _ (1, 0)), cmul_1_l. apply ceq_refl.
Qed.
Lemma bcubes_spec p k : BigZ.to_Z p <> 0 -> forall x,
  ceq (BigZ.to_Z p) (bval (bcubes p k x)) (cpow (bval x) (3 ^ k)).
Proof.
  intros Hp. induction k as [|k IH]; intros x; cbn [bcubes].
  - cbn. rewrite cmul_comm, cmul_1_l. apply ceq_refl.
  - eapply ceq_trans; [apply IH|]. rewrite Nat.pow_succ_r', cpow_mul. apply ceq_pow.
    eapply ceq_trans; [apply bcmul_spec; auto|]. cbn [cpow].
    rewrite (cmul_comm _ (1, 0)), cmul_1_l. apply ceq_mul; [apply ceq_refl|apply bcmul_spec; auto].
Qed.
Lemma bpow_spec p a b x : BigZ.to_Z p <> 0 ->
  ceq (BigZ.to_Z p) (bval (bcubes p b (bsqs p a x))) (cpow (bval x) (2 ^ a * 3 ^ b)).
Proof.
  intros Hp. eapply ceq_trans; [apply bcubes_spec; auto|]. rewrite cpow_mul. apply ceq_pow, bsqs_spec; auto.
Qed.
Lemma gcd_ceq p x y : ceq p x y -> Z.gcd (cnorm1 x) p = 1 -> Z.gcd (cnorm1 y) p = 1.
Proof.
  intros [[u U] [v V]] H. rewrite <- H. unfold cnorm1.
  assert (E1 : fst x = fst y + u * p) by lia. assert (E2 : snd x = snd y + v * p) by lia.
  rewrite E1, E2.
  replace ((fst y + u * p - 1) * (fst y + u * p - 1) + (snd y + v * p) * (snd y + v * p))
    with ((fst y - 1) * (fst y - 1) + snd y * snd y
          + (2 * u * (fst y - 1) + u * u * p + 2 * v * snd y + v * v * p) * p) by ring.
  rewrite Z.gcd_comm, (Z.gcd_comm (_ + _ * p) p).
  symmetry. apply Z.gcd_add_mult_diag_r.
Qed.

Theorem bcheck_prime p a b g : (1 <= a)%nat -> (1 <= b)%nat ->
  BigZ.to_Z p + 1 = 2 ^ Z.of_nat a * 3 ^ Z.of_nat b -> bcheck p a b g = true -> prime (BigZ.to_Z p).
Proof.
  intros Ha Hb HF HC. unfold bcheck in HC. rewrite !Bool.andb_true_iff in HC.
  destruct HC as [[[H1 H2] H3] H4].
  rewrite BigZ.spec_eqb in H1, H2, H3, H4. rewrite BigZ.spec_gcd in H3, H4.
  rewrite BigZ.spec_1 in H1, H3, H4. rewrite BigZ.spec_0 in H2.
  apply Z.eqb_eq in H1, H2, H3, H4.
  assert (P1 : 1 <= 2 ^ (Z.of_nat a - 1)) by (apply (Z.pow_le_mono_r 2 0); lia).
  assert (P2 : 1 <= 3 ^ (Z.of_nat b - 1)) by (apply (Z.pow_le_mono_r 3 0); lia).
  assert (E1 : 2 ^ Z.of_nat a = 2 * 2 ^ (Z.of_nat a - 1)).
  { rewrite <- Z.pow_succ_r by lia. f_equal; lia. }
  assert (E2 : 3 ^ Z.of_nat b = 3 * 3 ^ (Z.of_nat b - 1)).
  { rewrite <- Z.pow_succ_r by lia. f_equal; lia. }
  assert (Hp : 1 < BigZ.to_Z p) by nia.
  assert (Hp0 : BigZ.to_Z p <> 0) by lia.
  assert (N2 : (2 ^ a = 2 * 2 ^ (a - 1))%nat).
  { rewrite <- Nat.pow_succ_r'. f_equal; lia. }
  assert (N3 : (3 ^ b = 3 * 3 ^ (b - 1))%nat).
  { rewrite <- Nat.pow_succ_r'. f_equal; lia. }
  assert (NS : forall x : bigZ * bigZ, BigZ.to_Z (bnorm1 p x) = cnorm1 (bval x)).
  { intros x. unfold bnorm1, cnorm1, bval; cbn [fst snd].
    rewrite BigZ.spec_add, !BigZ.spec_mul, BigZ.spec_sub, BigZ.spec_1. reflexivity. }
  rewrite NS in H3; rewrite NS in H4.
  apply (prime_criterion (BigZ.to_Z p) (Z.of_nat a) (Z.of_nat b) (bval g) (2 ^ a * 3 ^ b)); [lia|lia|exact Hp| |exact HF| | |].
  - rewrite HF, Nat2Z.inj_mul, !Nat2Z.inj_pow. reflexivity.
  - pose proof (bpow_spec p a b g Hp0) as B. eapply ceq_trans; [apply ceq_sym; exact B|].
    unfold bval. rewrite H1, H2. apply ceq_refl.
  - replace (2 ^ a * 3 ^ b / 2)%nat with (2 ^ (a - 1) * 3 ^ b)%nat.
    + eapply gcd_ceq; [apply bpow_spec; auto|exact H3].
    + apply Nat.div_unique with (r := O); [lia|]. rewrite N2. lia.
  - replace (2 ^ a * 3 ^ b / 3)%nat with (2 ^ a * 3 ^ (b - 1))%nat.
    + eapply gcd_ceq; [apply bpow_spec; auto|exact H4].
    + apply Nat.div_unique with (r := O); [lia|]. rewrite N3. lia.
Qed.
