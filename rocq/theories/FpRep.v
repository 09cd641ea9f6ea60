(** Digit vectors as representatives of field elements, and the homomorphism property of every
    operation of fp_generic.c / fpx.c together with the ranges (proofs only). *)
From Coq Require Import Znumtheory Zpow_facts Field.
From Verif Require Import Base BaseP Digits DigitsP CombaP Params Fp Wf FpP Fld.
Set Bullet Behavior "Strict Subproofs".

(** The field element of Montgomery form: value times R^-1. *)
Definition toF (P : params) (a : felm) : Fp (par_p P) :=
  fmul (mkF (par_p P) (valB (2 ^ radix P) a)) (finv (mkF (par_p P) (par_R P))).
(** [a] represents [x], with value at most k p / below 2p. *)
Definition rep (P : params) (k : Z) (a : felm) (x : Fp (par_p P)) : Prop :=
  ok P a /\ valB (2 ^ radix P) a <= k * par_p P /\ toF P a = x.
Definition srep (P : params) (a : felm) (x : Fp (par_p P)) : Prop :=
  ok P a /\ valB (2 ^ radix P) a < 2 * par_p P /\ toF P a = x.

Section P.
Variable P : params.
Hypothesis HW : Wf P.
Hypothesis Hp : prime (par_p P).
Local Notation w := (radix P).
Local Notation n := (nwords P).
Local Notation p := (par_p P).
Local Notation R := (par_R P).
Local Notation val := (valB (2 ^ radix P)).
Local Notation ok := (ok P).
Local Notation toF := (toF P).
Local Notation rep := (rep P).
Local Notation srep := (srep P).

Lemma p4 : p mod 4 = 3.
Proof.
  pose proof (wf_shape P HW) as H. pose proof (wf_e2 P HW) as H2.
  replace p with (-1 + 2 ^ (Z.of_nat (e2 P) - 2) * 3 ^ Z.of_nat (e3 P) * 4).
  - rewrite Z_mod_plus_full. reflexivity.
  - replace (Z.of_nat (e2 P)) with (2 + (Z.of_nat (e2 P) - 2)) in H by lia.
    rewrite Z.pow_add_r in H by lia. lia.
Qed.
Lemma p_ne2 : p <> 2.
Proof. pose proof (p_ge P HW). lia. Qed.

Definition FP : fld := FpF p Hp p_ne2.
Definition FPan : anisotropic FP := Fp_anisotropic p Hp p_ne2 p4.
Definition FP2 : fld := QF FP FPan.

Definition Fth := Fp_field p Hp.
Add Field FpFd : Fth.

Lemma two_ne0 : mkF p 2 <> f0.
Proof.
  intros E. apply mkF_eq in E. pose proof (p_ge P HW). rewrite Z.mod_0_l, Z.mod_small in E; lia.
Qed.
Lemma pow2_ne0 k : 0 <= k -> mkF p (2 ^ k) <> f0.
Proof.
  intros Hk E. apply mkF_eq in E. pose proof (p_ge P HW) as H. rewrite Z.mod_0_l in E by lia.
  apply Z.mod_divide in E; [|lia].
  apply prime_power_prime in E; auto; [|apply prime_2]. lia.
Qed.
Lemma R_pow : R = 2 ^ (w * Z.of_nat n).
Proof. pose proof (w2 P HW). unfold par_R. rewrite <- Z.pow_mul_r by lia. reflexivity. Qed.
Lemma R_ne0 : mkF p R <> f0.
Proof. rewrite R_pow. pose proof (w2 P HW). apply pow2_ne0. nia. Qed.

Lemma toF_R a : fmul (toF a) (mkF p R) = mkF p (val a).
Proof. unfold FpRep.toF. pose proof R_ne0. field. auto. Qed.
Lemma toF_eq a b : (val a) mod p = (val b) mod p <-> toF a = toF b.
Proof.
  split; intros H.
  - unfold FpRep.toF. f_equal. now apply mkF_eq.
  - apply mkF_eq. now rewrite <- !toF_R, H.
Qed.
Lemma toF_intro a x : mkF p (val a) = fmul x (mkF p R) -> toF a = x.
Proof. intros H. unfold FpRep.toF. rewrite H. pose proof R_ne0. field. auto. Qed.

Lemma srep_rep a x : srep a x -> rep 2 a x.
Proof. intros (O & B & E). split; [|split]; auto. lia. Qed.
Lemma rep_le j k a x : j <= k -> rep j a x -> rep k a x.
Proof.
  intros H (O & B & E). split; [|split]; auto. pose proof (ppos P HW).
  pose proof (Z.mul_le_mono_nonneg_r j k p). lia.
Qed.
Lemma rep_ok k a x : rep k a x -> ok a. Proof. intros H; apply H. Qed.
Lemma srep_ok a x : srep a x -> ok a. Proof. intros H; apply H. Qed.
Lemma rep_toF k a x : rep k a x -> toF a = x. Proof. intros H; apply H. Qed.

Lemma val_add_mul x k : mkF p (x + k * p) = mkF p x.
Proof. apply mkF_eq. apply Z_mod_plus_full. Qed.

Ltac prep := pose proof (ppos P HW) as Hpp; pose proof (Rhead P HW) as HRh;
  repeat match goal with
  | H : rep _ _ _ |- _ => let O := fresh "O" in let B := fresh "B" in let E := fresh "E" in
                          destruct H as (O & B & E); pose proof (ok_bound P HW _ O)
  | H : srep _ _ |- _ => let O := fresh "O" in let B := fresh "B" in let E := fresh "E" in
                          destruct H as (O & B & E); pose proof (ok_bound P HW _ O)
  end; subst.

Lemma rep_add a b x y : rep 2 a x -> rep 2 b y -> rep 2 (fpadd P a b) (fadd x y).
Proof.
  intros H1 H2. prep. destruct (fpadd_val P HW a b) as [Oc V]; auto; [lia|].
  split; [|split]; auto.
  - rewrite V. destruct (Z.ltb_spec (val a + val b) (2 * p)); lia.
  - apply toF_intro. rewrite V.
    transitivity (mkF p (val a + val b)).
    + destruct (_ <? _); auto. replace (val a + val b - 2 * p) with (val a + val b + -2 * p) by ring.
      apply val_add_mul.
    + rewrite mkF_add, <- !toF_R. ring.
Qed.
Lemma srep_add a b x y : srep a x -> srep b y -> srep (fpadd P a b) (fadd x y).
Proof.
  intros H1 H2. pose proof (rep_add a b x y (srep_rep _ _ H1) (srep_rep _ _ H2)) as (_ & _ & E).
  prep. destruct (fpadd_val P HW a b) as [Oc V]; auto; [lia|].
  split; [|split]; auto. rewrite V. destruct (Z.ltb_spec (val a + val b) (2 * p)); lia.
Qed.
Lemma rep_sub a b x y : rep 2 a x -> rep 2 b y -> rep 2 (fpsub P a b) (fsub x y).
Proof.
  intros H1 H2. prep. destruct (fpsub_val P HW a b) as [Oc V]; auto; [lia|].
  split; [|split]; auto.
  - rewrite V. destruct (Z.ltb_spec (val a) (val b)); lia.
  - apply toF_intro. rewrite V.
    transitivity (mkF p (val a - val b)).
    + destruct (_ <? _); auto. apply val_add_mul.
    + rewrite mkF_sub, <- !toF_R. ring.
Qed.
Lemma srep_sub a b x y : srep a x -> srep b y -> srep (fpsub P a b) (fsub x y).
Proof.
  intros H1 H2. pose proof (rep_sub a b x y (srep_rep _ _ H1) (srep_rep _ _ H2)) as (_ & _ & E).
  prep. destruct (fpsub_val P HW a b) as [Oc V]; auto; [lia|].
  split; [|split]; auto. rewrite V. destruct (Z.ltb_spec (val a) (val b)); lia.
Qed.
Lemma rep_neg a x : rep 2 a x -> rep 2 (fpneg P a) (fopp x).
Proof.
  intros H1. prep. destruct (fpneg_val P HW a) as [Oc V]; auto.
  split; [|split]; auto; [lia|].
  apply toF_intro. rewrite V. replace (2 * p - val a) with (- val a + 2 * p) by ring.
  rewrite val_add_mul, mkF_opp, <- toF_R. ring.
Qed.
Lemma srep_neg a x : srep a x -> x <> f0 -> srep (fpneg P a) (fopp x).
Proof.
  intros H1 N. pose proof (rep_neg a x (srep_rep _ _ H1)) as (_ & _ & E).
  prep. destruct (fpneg_val P HW a) as [Oc V]; auto; [lia|].
  split; [|split]; auto. rewrite V.
  assert (val a <> 0); [|lia]. intros Z0. apply N. unfold FpRep.toF. rewrite Z0. fold (@f0 p). ring.
Qed.
Lemma rep_div2 a x : rep 2 a x -> srep (fpdiv2 P a) (fdiv x (mkF p 2)).
Proof.
  intros H1. prep. destruct (fpdiv2_val P HW a) as [Oc V]; auto; [lia|].
  pose proof (Z.mod_pos_bound (val a) 2 ltac:(lia)) as M.
  pose proof (p_odd P HW) as Od.
  assert (E2 : val a + val a mod 2 * p = 2 * val (fpdiv2 P a)).
  { rewrite V. apply Z_div_exact_2; [lia|].
    rewrite Zplus_mod, Zmult_mod, Zmod_mod. rewrite (Zmod_odd p), Od, Z.mul_1_r, Zmod_mod.
    rewrite <- Zplus_mod. replace (val a + val a) with (val a * 2) by ring. apply Z_mod_mult. }
  assert (val a mod 2 * p <= p) by (destruct (Z.eq_dec (val a mod 2) 0) as [->|]; [lia|];
    replace (val a mod 2) with 1 by lia; lia).
  split; [|split]; auto; [lia|].
  apply toF_intro.
  assert (X : fmul (mkF p 2) (mkF p (val (fpdiv2 P a))) = fmul (toF a) (mkF p R)).
  { rewrite <- mkF_mul, <- E2, val_add_mul. now rewrite toF_R. }
  pose proof two_ne0. transitivity (fdiv (fmul (mkF p 2) (mkF p (val (fpdiv2 P a)))) (mkF p 2)).
  - field. auto.
  - rewrite X. field. auto.
Qed.
Lemma rep_corr a x : srep a x -> rep 1 (fpcorrection P a) x /\ val (fpcorrection P a) < p.
Proof.
  intros H1. prep. destruct (fpcorrection_range P HW a) as [Oc V]; auto.
  pose proof (Z.mod_pos_bound (val a) p Hpp). split; [|lia].
  split; [|split]; auto; [lia|]. apply toF_eq. rewrite V. apply Zmod_mod.
Qed.

(** Multiplication: factors at most j p and k p with j k < 256. *)
Lemma rep_mul j k a b x y : rep j a x -> rep k b y -> 0 <= j -> 0 <= k -> j * k <= 255 ->
  srep (fpmul_mont P a b) (fmul x y).
Proof.
  intros H1 H2 Hj Hk Hjk. prep.
  assert (LT : val a * val b < R * p).
  { apply Z.le_lt_trans with ((j * p) * (k * p)).
    - apply Z.mul_le_mono_nonneg; lia.
    - replace (j * p * (k * p)) with ((j * k) * p * p) by ring.
      apply Z.mul_lt_mono_pos_r; auto. apply Z.le_lt_trans with (255 * p).
      + apply Z.mul_le_mono_nonneg_r; lia.
      + lia. }
  destruct (fpmul_mont_val P HW a b) as (Oc & Bc & q & Hq & E); auto.
  split; [|split]; auto; [lia|].
  apply toF_intro.
  assert (X : fmul (mkF p R) (mkF p (val (fpmul_mont P a b)))
            = fmul (fmul (toF a) (mkF p R)) (fmul (toF b) (mkF p R))).
  { rewrite !toF_R, <- !mkF_mul, E, val_add_mul. reflexivity. }
  pose proof R_ne0.
  transitivity (fdiv (fmul (mkF p R) (mkF p (val (fpmul_mont P a b)))) (mkF p R)).
  - field. auto.
  - rewrite X. field. auto.
Qed.
Lemma rep_sqr j a x : rep j a x -> 0 <= j <= 15 -> srep (fpsqr_mont P a) (fmul x x).
Proof. intros H Hj. apply (rep_mul j j); auto; try lia. nia. Qed.

Lemma rep_ladd j k a b x y : rep j a x -> rep k b y -> j + k <= 255 ->
  rep (j + k) (mp_addfast P a b) (fadd x y).
Proof.
  intros H1 H2 Hjk. prep.
  assert ((j + k) * p <= 255 * p) by (apply Z.mul_le_mono_nonneg_r; lia).
  destruct (mp_addfast_val P HW a b) as [Oc V]; auto; [lia|].
  split; [|split]; auto; [lia|].
  apply toF_intro. rewrite V, mkF_add, <- !toF_R. ring.
Qed.
Lemma rep_lsub2 j k a b x y : rep j a x -> rep k b y -> k <= 2 -> j <= 250 ->
  rep (j + 2) (mp_sub_p2 P a b) (fsub x y).
Proof.
  intros H1 H2 Hk Hj. prep.
  assert (j * p <= 250 * p) by (apply Z.mul_le_mono_nonneg_r; lia).
  assert (k * p <= 2 * p) by (apply Z.mul_le_mono_nonneg_r; lia).
  destruct (mp_sub_p2_val P HW a b) as [Oc V]; auto; try lia.
  split; [|split]; auto; [lia|].
  apply toF_intro. rewrite V, val_add_mul, mkF_sub, <- !toF_R. ring.
Qed.
Lemma rep_lsub4 j k a b x y : rep j a x -> rep k b y -> k <= 4 -> j <= 250 ->
  rep (j + 4) (mp_sub_p4 P a b) (fsub x y).
Proof.
  intros H1 H2 Hk Hj. prep.
  assert (j * p <= 250 * p) by (apply Z.mul_le_mono_nonneg_r; lia).
  assert (k * p <= 4 * p) by (apply Z.mul_le_mono_nonneg_r; lia).
  destruct (mp_sub_p4_val P HW a b) as [Oc V]; auto; try lia.
  split; [|split]; auto; [lia|].
  apply toF_intro. rewrite V, val_add_mul, mkF_sub, <- !toF_R. ring.
Qed.

Lemma rep_zero : srep (fpzero P) f0.
Proof.
  pose proof (ppos P HW). split; [apply (ok_zero P HW)|]. rewrite val_zero. split; [lia|].
  apply toF_intro. rewrite val_zero. fold (@f0 p). ring.
Qed.
Lemma rep_one : rep 1 (w_one P) f1 /\ srep (w_one P) f1.
Proof.
  pose proof (ppos P HW) as H. pose proof (Z.mod_pos_bound R p H).
  assert (E : toF (w_one P) = f1).
  { apply toF_intro. rewrite (wf_vone P HW). transitivity (mkF p R); [apply mkF_eq, Zmod_mod|].
    ring. }
  split; (split; [apply (wf_one P HW)|split; [rewrite (wf_vone P HW); lia|exact E]]).
Qed.

(** ** Montgomery conversion *)
Definition vunit : felm := upd 0 1 (fpzero P).
Lemma ok_unit : ok vunit /\ val vunit = 1.
Proof.
  pose proof (wf_n1 P HW). pose proof (w2 P HW).
  assert (HB : 1 < 2 ^ w) by (apply Z.pow_gt_1; lia).
  split.
  - split.
    + unfold vunit. rewrite upd_length. apply repeat_length.
    + apply digits_upd; [lia|]. apply digits_repeat0. lia.
  - unfold vunit, fpzero. destruct n; [lia|]. cbn [repeat upd valB]. rewrite valB_repeat0. lia.
Qed.
Lemma to_mont_rep a : ok a -> srep (to_mont P a) (mkF p (val a)).
Proof.
  intros Oa. pose proof (ppos P HW) as Hpp. pose proof (ok_bound P HW _ Oa) as Ba.
  pose proof (Z.mod_pos_bound (R * R) p Hpp) as B2.
  unfold to_mont. destruct (fpmul_mont_val P HW a (w_R2 P)) as (Oc & Bc & q & Hq & E); auto.
  - apply (wf_R2 P HW).
  - rewrite (wf_vR2 P HW). apply Z.le_lt_trans with (val a * p).
    + apply Z.mul_le_mono_nonneg_l; lia.
    + apply Z.mul_lt_mono_pos_r; lia.
  - split; [|split]; auto; [lia|].
    apply toF_intro.
    assert (X : fmul (mkF p R) (mkF p (val (fpmul_mont P a (w_R2 P))))
              = fmul (mkF p (val a)) (fmul (mkF p R) (mkF p R))).
    { rewrite <- !mkF_mul, E, val_add_mul, (wf_vR2 P HW).
      apply mkF_eq. apply Zmult_mod_idemp_r. }
    pose proof R_ne0.
    transitivity (fdiv (fmul (mkF p R) (mkF p (val (fpmul_mont P a (w_R2 P))))) (mkF p R)).
    + field. auto.
    + rewrite X. field. auto.
Qed.
(** from_mont yields the canonical integer. *)
Lemma from_mont_val k a x : rep k a x -> k <= 255 -> ok (from_mont P a) /\ val (from_mont P a) = fval x.
Proof.
  intros H Hk. pose proof ok_unit as [Ou Vu]. prep.
  assert (k * p <= 255 * p) by (apply Z.mul_le_mono_nonneg_r; lia).
  destruct (fpmul_mont_val P HW a vunit) as (Oc & Bc & q & Hq & E); auto.
  { rewrite Vu, Z.mul_1_r. pose proof (ppos P HW). nia. }
  unfold from_mont. fold vunit.
  destruct (fpcorrection_range P HW (fpmul_mont P a vunit)) as [Od Vd]; auto; [lia|].
  split; auto. rewrite Vd.
  assert (X : mkF p (val (fpmul_mont P a vunit)) = toF a).
  { assert (Y : fmul (mkF p R) (mkF p (val (fpmul_mont P a vunit))) = fmul (toF a) (mkF p R)).
    { rewrite toF_R, <- mkF_mul, E, val_add_mul, Vu, Z.mul_1_r. reflexivity. }
    pose proof R_ne0. transitivity (fdiv (fmul (mkF p R) (mkF p (val (fpmul_mont P a vunit)))) (mkF p R)).
    - field. auto.
    - rewrite Y. field. auto. }
  rewrite <- X. reflexivity.
Qed.

(** ** Powers and inversion *)
Lemma fpow_0 (x : Fp p) : fpow x 0 = f1.
Proof. reflexivity. Qed.
Lemma fpow_1 (x : Fp p) : fpow x 1 = x.
Proof. unfold fpow. rewrite Z.pow_1_r. apply mkF_fval. Qed.
Lemma fpow_add (x : Fp p) a b : 0 <= a -> 0 <= b -> fpow x (a + b) = fmul (fpow x a) (fpow x b).
Proof. intros. unfold fpow. rewrite Z.pow_add_r by auto. apply mkF_mul. Qed.
Lemma fpow_mul (x : Fp p) a b : 0 <= a -> 0 <= b -> fpow x (a * b) = fpow (fpow x a) b.
Proof.
  intros. unfold fpow at 1 3. rewrite Z.pow_mul_r by auto.
  rewrite mkF_pow by apply (ppos P HW). reflexivity.
Qed.
Lemma fpow_2 (x : Fp p) : fpow x 2 = fmul x x.
Proof. replace 2 with (1 + 1) by lia. rewrite fpow_add, fpow_1 by lia. reflexivity. Qed.

Lemma iter_sqr k tt x e : 0 <= e -> rep 2 tt (fpow x e) ->
  rep 2 (Nat.iter k (fpsqr_mont P) tt) (fpow x (2 ^ Z.of_nat k * e)).
Proof.
  intros He H. induction k as [|k IH].
  - cbn [Nat.iter]. change (2 ^ Z.of_nat 0) with 1. now rewrite Z.mul_1_l.
  - cbn [Nat.iter Nat.iter nat_rect]. apply srep_rep.
    replace (2 ^ Z.of_nat (S k) * e) with (2 ^ Z.of_nat k * e + 2 ^ Z.of_nat k * e).
    + rewrite fpow_add by (apply Z.mul_nonneg_nonneg; lia). apply (rep_sqr 2); [exact IH|lia].
    + rewrite Nat2Z.inj_succ, Z.pow_succ_r by lia. ring.
Qed.

Section Chain.
Variables (a : felm) (x : Fp p).
Hypothesis Ha : rep 2 a x.
Definition tabrel (t : list felm) (te : list (option Z)) : Prop :=
  forall i e, nth i te None = Some e -> 0 <= e /\ rep 2 (nth i t []) (fpow x e).
Lemma chain_mul_rep t te tt e s e' : tabrel t te -> 0 <= e -> rep 2 tt (fpow x e) ->
  exp_mul te (Some e) s = Some e' -> 0 <= e' /\ rep 2 (chain_mul P a t tt s) (fpow x e').
Proof.
  destruct s as [k [i|]]; cbn [exp_mul chain_mul]; intros Ht He Htt Hs.
  - destruct (nth i te None) as [f|] eqn:Ef; [|discriminate]. inversion Hs; subst.
    destruct (Ht _ _ Ef) as [Hf Hr].
    assert (0 <= 2 ^ Z.of_nat k * e) by (apply Z.mul_nonneg_nonneg; lia). split; [lia|].
    rewrite Z.add_comm, fpow_add by lia. apply srep_rep, (rep_mul 2 2); try lia; auto using iter_sqr.
  - inversion Hs; subst.
    assert (0 <= 2 ^ Z.of_nat k * e) by (apply Z.mul_nonneg_nonneg; lia). split; [lia|].
    rewrite Z.add_comm, fpow_add, fpow_1 by lia. apply srep_rep, (rep_mul 2 2); try lia; auto using iter_sqr.
Qed.
Lemma fold_exp_None te l : fold_left (exp_mul te) l None = None.
Proof. induction l as [|[k [i|]] l IH]; cbn; auto. Qed.
Lemma fold_chain_rep t te l : tabrel t te -> forall tt e e', 0 <= e -> rep 2 tt (fpow x e) ->
  fold_left (exp_mul te) l (Some e) = Some e' ->
  0 <= e' /\ rep 2 (fold_left (chain_mul P a t) l tt) (fpow x e').
Proof.
  intros Ht. induction l as [|s l IH]; intros tt e e' He Hr Hf.
  - cbn in Hf |- *. inversion Hf; subst. auto.
  - cbn [fold_left] in Hf |- *. destruct (exp_mul te (Some e) s) as [f|] eqn:Es.
    + destruct (chain_mul_rep _ _ _ _ _ _ Ht He Hr Es). apply (IH _ f); auto.
    + rewrite fold_exp_None in Hf. discriminate.
Qed.
Lemma iter_exp_None te l k : Nat.iter k (fun e => fold_left (exp_mul te) l e) None = None.
Proof. induction k as [|k IH]; auto. cbn [Nat.iter nat_rect]. unfold Nat.iter in IH. rewrite IH. apply fold_exp_None. Qed.
Lemma iter_succ_r {A} k (f : A -> A) z : Nat.iter (S k) f z = Nat.iter k f (f z).
Proof. induction k as [|k IH]; auto. cbn [Nat.iter nat_rect] in *. now rewrite IH. Qed.
Lemma iter_chain_rep t te l : tabrel t te -> forall k tt e e', 0 <= e -> rep 2 tt (fpow x e) ->
  Nat.iter k (fun e => fold_left (exp_mul te) l e) (Some e) = Some e' ->
  0 <= e' /\ rep 2 (Nat.iter k (fun tt => fold_left (chain_mul P a t) l tt) tt) (fpow x e').
Proof.
  intros Ht. induction k as [|k IH]; intros tt e e' He Hr Hf.
  - cbn in Hf |- *. inversion Hf; subst. auto.
  - rewrite iter_succ_r in Hf. rewrite iter_succ_r. destruct (fold_left (exp_mul te) l (Some e)) as [f|] eqn:Es.
    + destruct (fold_chain_rep _ _ _ Ht _ _ _ He Hr Es). apply (IH _ f); auto.
    + rewrite iter_exp_None in Hf. discriminate.
Qed.
Lemma tabrel_upd t te i b e : length t = length te -> tabrel t te ->
  match e with Some e => 0 <= e /\ rep 2 b (fpow x e) | None => True end ->
  tabrel (upd i b t) (upd i e te).
Proof.
  intros L Ht He j f Hj. destruct (Nat.eq_dec i j) as [->|N].
  - destruct (Nat.lt_ge_cases j (length te)) as [Hl|Hl].
    + rewrite nth_upd_same in Hj by auto. subst e. rewrite nth_upd_same by congruence. auto.
    + rewrite nth_overflow in Hj by (rewrite upd_length; auto). discriminate.
  - rewrite nth_upd_other in Hj by auto. rewrite nth_upd_other by auto. auto.
Qed.
Lemma table_rep tt l : rep 2 tt (fpow x 2) -> forall t te, length t = length te -> tabrel t te ->
  tabrel (fold_left (fun t '(i, j) => upd j (fpmul_mont P (nth i t []) tt) t) l t)
         (fold_left (fun t '(i, j) => upd j (match nth i t None with Some f => Some (f + 2) | None => None end) t) l te).
Proof.
  intros Htt. induction l as [|[i j] l IH]; intros t te L Ht; cbn [fold_left]; auto.
  apply IH; [rewrite !upd_length; auto|]. apply tabrel_upd; auto.
  destruct (nth i te None) as [f|] eqn:Ef; auto. destruct (Ht _ _ Ef) as [Hf Hr]. split; [lia|].
  rewrite fpow_add by lia. apply srep_rep, (rep_mul 2 2); auto; lia.
Qed.
Lemma chain_rep : rep 2 (fpinv_chain_mont P a) (fpow x ((p - 3) / 4)).
Proof.
  pose proof (wf_inv P HW) as HI. unfold chain_exp in HI. unfold fpinv_chain_mont.
  set (te0 := upd 0 (Some 3) (repeat None (inv_size P))) in HI.
  set (te := fold_left _ (inv_table P) te0) in HI.
  set (t0 := upd 0 (fpmul_mont P a (fpsqr_mont P a)) (repeat [] (inv_size P))).
  set (t := fold_left (fun t '(i, j) => upd j (fpmul_mont P (nth i t []) (fpsqr_mont P a)) t) (inv_table P) t0).
  cbv zeta.
  assert (Htt : rep 2 (fpsqr_mont P a) (fpow x 2)).
  { rewrite fpow_2. apply srep_rep, (rep_sqr 2); auto; lia. }
  assert (Ht : tabrel t te).
  { apply table_rep; auto.
    - unfold t0, te0. rewrite !upd_length, !repeat_length. reflexivity.
    - unfold t0, te0. apply tabrel_upd.
      + rewrite !repeat_length. reflexivity.
      + intros i e H. rewrite nth_repeat in H. discriminate.
      + split; [lia|]. replace 3 with (1 + 2) by lia. rewrite fpow_add, fpow_1 by lia.
        apply srep_rep, (rep_mul 2 2); auto; lia. }
  destruct (inv_loop P) as [k body].
  destruct (fold_left (exp_mul te) (inv_steps P) (Some 1)) as [e|] eqn:Es.
  - destruct (fold_chain_rep t te (inv_steps P) Ht a 1 e ltac:(lia)) as [He Hr]; auto.
    { rewrite fpow_1. exact Ha. }
    destruct (iter_chain_rep t te body Ht k _ e _ He Hr HI) as [_ Hq]. exact Hq.
  - rewrite iter_exp_None in HI. discriminate.
Qed.
End Chain.

Lemma rep_inv a x : rep 2 a x -> srep (fpinv_mont P a) (finv x).
Proof.
  intros Ha. pose proof (chain_rep a x Ha) as Hc. unfold fpinv_mont.
  pose proof (p_ge P HW) as H11.
  assert (Ep : 0 <= (p - 3) / 4 /\ 4 * ((p - 3) / 4) = p - 3).
  { pose proof p4 as H4. pose proof (Z.div_mod p 4 ltac:(lia)) as D. rewrite H4 in D.
    replace (p - 3) with (p / 4 * 4) by lia. rewrite Z.div_mul by lia. lia. }
  set (e := (p - 3) / 4) in *.
  unfold finv. replace (p - 2) with (1 + (e * 2) * 2) by lia.
  rewrite fpow_add, fpow_1, !fpow_mul, !fpow_2 by lia.
  apply (rep_mul 2 2); try lia; auto. apply srep_rep, (rep_sqr 2); [|lia]. apply srep_rep, (rep_sqr 2); [auto|lia].
Qed.

(** ** GF(p^2) *)
Definition rep2 (k : Z) (a : f2elm) (x : K2 FP) : Prop := rep k (fst a) (fst x) /\ rep k (snd a) (snd x).
Definition srep2 (a : f2elm) (x : K2 FP) : Prop := srep (fst a) (fst x) /\ srep (snd a) (snd x).

Lemma srep2_rep2 a x : srep2 a x -> rep2 2 a x.
Proof. intros [H1 H2]. split; now apply srep_rep. Qed.
Lemma rep2_le j k a x : j <= k -> rep2 j a x -> rep2 k a x.
Proof. intros H [H1 H2]. split; eapply rep_le; eauto. Qed.

Lemma rep2_add a b x y : rep2 2 a x -> rep2 2 b y -> rep2 2 (fp2add P a b) (qadd FP x y).
Proof. intros [] []. split; cbn [fst snd fp2add qadd]; apply rep_add; auto. Qed.
Lemma srep2_add a b x y : srep2 a x -> srep2 b y -> srep2 (fp2add P a b) (qadd FP x y).
Proof. intros [] []. split; cbn [fst snd fp2add qadd]; apply srep_add; auto. Qed.
Lemma rep2_sub a b x y : rep2 2 a x -> rep2 2 b y -> rep2 2 (fp2sub P a b) (qsub FP x y).
Proof. intros [] []. split; cbn [fst snd fp2sub qsub]; apply rep_sub; auto. Qed.
Lemma srep2_sub a b x y : srep2 a x -> srep2 b y -> srep2 (fp2sub P a b) (qsub FP x y).
Proof. intros [] []. split; cbn [fst snd fp2sub qsub]; apply srep_sub; auto. Qed.
Lemma rep2_neg a x : rep2 2 a x -> rep2 2 (fp2neg P a) (qopp FP x).
Proof. intros []. split; cbn [fst snd fp2neg qopp]; apply rep_neg; auto. Qed.
Definition q2 : K2 FP := (mkF p 2, f0).
Lemma rep2_div2 a x : rep2 2 a x -> srep2 (fp2div2 P a) (qdiv FP x q2).
Proof.
  intros [H1 H2]. pose proof two_ne0.
  assert (E : qdiv FP x q2 = (fdiv (fst x) (mkF p 2), fdiv (snd x) (mkF p 2))).
  { unfold qdiv, qmul, qinv, qnorm, q2; cbn [fst snd FP FpF K kmul kadd ksub kopp kinv].
    f_equal; field; auto. }
  rewrite E. split; cbn [fst snd fp2div2]; now apply rep_div2.
Qed.
Lemma rep2_corr a x : srep2 a x -> rep2 1 (fp2correction P a) x.
Proof. intros []. split; cbn [fst snd fp2correction]; now apply rep_corr. Qed.
Lemma rep2_ladd j k a b x y : rep2 j a x -> rep2 k b y -> j + k <= 255 ->
  rep2 (j + k) (mp2_add P a b) (qadd FP x y).
Proof. intros [] [] HB. split; cbn [fst snd mp2_add qadd]; apply rep_ladd; auto. Qed.
Lemma rep2_lsub j k a b x y : rep2 j a x -> rep2 k b y -> k <= 2 -> j <= 250 ->
  rep2 (j + 2) (mp2_sub_p2 P a b) (qsub FP x y).
Proof. intros [] [] HB1 HB2. split; cbn [fst snd mp2_sub_p2 qsub]; eapply rep_lsub2; eauto. Qed.

Lemma rep2_sqr j a x : rep2 j a x -> 0 <= j <= 4 -> srep2 (fp2sqr_mont P a) (qmul FP x x).
Proof.
  intros [H1 H2] Hj. destruct a as [a0 a1], x as [x y]. cbn [fst snd] in *.
  unfold fp2sqr_mont. split; cbn [fst snd qmul].
  - replace (ksub (kmul x x) (kmul y y)) with (fmul (fadd x y) (fsub x y))
      by (cbn [FP FpF K kmul kadd ksub]; ring).
    apply (rep_mul (j + j) (j + 4)); try lia; [|eapply rep_lsub4; eauto; lia|nia].
    apply rep_ladd; auto; lia.
  - replace (kadd (kmul x y) (kmul y x)) with (fmul (fadd x x) y)
      by (cbn [FP FpF K kmul kadd ksub]; ring).
    apply (rep_mul (j + j) j); auto; try lia; [|nia]. apply rep_ladd; auto; lia.
Qed.

(** The double-length helpers of fp2mul_mont. *)
Definition ok2 (a : list Z) : Prop := length a = (2 * n)%nat /\ digits (2 ^ w) a.
Lemma R2_pow : (2 ^ w) ^ Z.of_nat (2 * n) = R * R.
Proof. unfold par_R. rewrite <- Z.pow_add_r by lia. f_equal. lia. Qed.
Lemma ok2_bound a : ok2 a -> 0 <= val a < R * R.
Proof. intros [L D]. pose proof (valB_bound _ a (Bpos P HW) D) as H. rewrite L, R2_pow in H. exact H. Qed.
Lemma mul_ok2 a b : ok a -> ok b -> ok2 (mp_mul w a b n) /\ val (mp_mul w a b n) = val a * val b.
Proof. intros Ha Hb. destruct (mp_mul_ok P HW a b Ha Hb) as (L & D & V). split; [split|]; auto. Qed.
Lemma sub2_ok a b : ok2 a -> ok2 b ->
  exists c r, mp_sub w a b = (c, r) /\ ok2 r /\ 0 <= c <= 1 /\ val a - val b = val r - R * R * c.
Proof.
  intros [La Da] [Lb Db].
  pose proof (subc_loop_spec w (w2 P HW) 0 a b ltac:(lia) Da Db ltac:(congruence)) as H.
  unfold mp_sub. destruct (subc_loop w 0 a b) as [c r]. exists c, r.
  unfold Digits.B in H. rewrite La, R2_pow in H.
  split; auto. destruct H as (H1 & H2 & H3 & H4). repeat (split; auto); try lia. 
Qed.
Lemma dblsub_ok a b c : ok2 a -> ok2 b -> ok2 c -> val a + val b <= val c ->
  ok2 (mp_dblsubfast P a b c) /\ val (mp_dblsubfast P a b c) = val c - val a - val b.
Proof.
  intros Ha Hb Hc H. unfold mp_dblsubfast.
  pose proof (ok2_bound _ Ha). pose proof (ok2_bound _ Hb). pose proof (ok2_bound _ Hc).
  destruct (sub2_ok c a Hc Ha) as (c1 & r1 & E1 & O1 & C1 & V1). rewrite E1. cbn [snd].
  pose proof (ok2_bound _ O1). assert (c1 = 0).
  { destruct (Z.eq_dec c1 0); auto. assert (c1 = 1) by lia. subst. lia. }
  subst c1.
  destruct (sub2_ok r1 b O1 Hb) as (c2 & r2 & E2 & O2 & C2 & V2). rewrite E2. cbn [snd].
  pose proof (ok2_bound _ O2). assert (c2 = 0).
  { destruct (Z.eq_dec c2 0); auto. assert (c2 = 1) by lia. subst. lia. }
  subst c2. split; auto. lia.
Qed.
Lemma subadd_ok a b : ok2 a -> ok2 b -> val a < R * p -> val b <= R * p ->
  ok2 (mp_subaddfast P a b) /\
  val (mp_subaddfast P a b) = if val a <? val b then val a - val b + R * p else val a - val b.
Proof.
  intros Ha Hb B1 B2. unfold mp_subaddfast.
  pose proof (ok2_bound _ Ha). pose proof (ok2_bound _ Hb). pose proof (Rpos P HW) as HR.
  pose proof (ppos P HW) as Hpp. pose proof (Rhead P HW) as Hh.
  destruct (sub2_ok a b Ha Hb) as (c & r & E & O & C & V). rewrite E.
  pose proof (ok2_bound _ O) as Br. destruct O as [Lr Dr].
  assert (Of : ok (firstn n r)).
  { split; [rewrite firstn_length; lia|apply digits_firstn; auto]. }
  assert (Os : ok (skipn n r)).
  { split; [rewrite skipn_length; lia|apply digits_skipn; auto]. }
  assert (Vr : val r = val (firstn n r) + R * val (skipn n r)).
  { rewrite <- (firstn_skipn n r) at 1. rewrite valB_app. destruct Of as [-> _]. reflexivity. }
  destruct (masked_ok P HW c (w_p P) C (wf_p P HW)) as [Om Vm].
  fold p in Vm.
  destruct (addc_ok P HW (skipn n r) (masked P c (w_p P)) Os Om) as (c1 & r1 & E1 & O1 & C1 & V1).
  unfold mp_addfast, mp_add. rewrite E1. cbn [snd]. rewrite Vm in V1.
  pose proof (ok_bound P HW _ Of) as Bf. pose proof (ok_bound P HW _ Os) as Bs. pose proof (ok_bound P HW _ O1) as Bo.
  assert (Hval : val (firstn n r ++ r1) = val (firstn n r) + R * val r1).
  { rewrite valB_app. destruct Of as [-> _]. reflexivity. }
  split.
  - split.
    + rewrite app_length. destruct Of as [-> _], O1 as [-> _]. lia.
    + apply digits_app; split; [apply Of|apply O1].
  - rewrite Hval.
    assert (Q : val a - val b + R * (c * p) = val (firstn n r) + R * val r1 + R * R * (c1 - c)).
    { rewrite Vr in V.
      replace (R * (c * p)) with (R * (val (skipn n r) + c * p) - R * val (skipn n r)) by ring.
      rewrite V1. replace (R * (val r1 + R * c1)) with (R * val r1 + R * R * c1) by ring.
      replace (R * R * (c1 - c)) with (R * R * c1 - R * R * c) by ring. lia. }
    assert (0 <= val (firstn n r) + R * val r1 < R * R).
    { assert (0 <= R * val r1) by (apply Z.mul_nonneg_nonneg; lia).
      assert (R * val r1 <= R * (R - 1)) by (apply Z.mul_le_mono_nonneg_l; lia). lia. }
    assert (R * p < R * R) by (apply Z.mul_lt_mono_pos_l; lia).
    destruct (Z.ltb_spec (val a) (val b)).
    + assert (c = 1).
      { destruct (Z.eq_dec c 0); [subst c|lia]. lia. }
      subst c. assert (c1 = 1).
      { destruct (Z.eq_dec c1 1) as [|]; auto. assert (c1 = 0) by lia. subst c1. exfalso.
        replace (R * (1 * p)) with (R * p) in Q by ring. lia. }
      subst c1. lia.
    + assert (c = 0).
      { destruct (Z.eq_dec c 0); auto. assert (c = 1) by lia. subst c. lia. }
      subst c. assert (c1 = 0).
      { destruct (Z.eq_dec c1 0) as [|]; auto. assert (c1 = 1) by lia. subst c1. exfalso. lia. }
      subst c1. lia.
Qed.

Lemma rdc_rep m v : ok2 m -> val m < R * p -> mkF p (val m) = fmul v (fmul (mkF p R) (mkF p R)) ->
  srep (rdc_mont w (w_pp1 P) (zwords P) n m) v.
Proof.
  intros [L D] H E. destruct (rdc_ok P HW m L D H) as (q & Hq & O & ER & B).
  split; [exact O|split; [apply B|]]. apply toF_intro.
  unfold rdc in ER, B. set (r := rdc_mont w (w_pp1 P) (zwords P) n m) in *.
  assert (X : fmul (mkF p R) (mkF p (val r)) = fmul v (fmul (mkF p R) (mkF p R))).
  { rewrite <- mkF_mul, ER, val_add_mul. exact E. }
  pose proof R_ne0. transitivity (fdiv (fmul (mkF p R) (mkF p (val r))) (mkF p R)).
  - field. auto.
  - rewrite X. field. auto.
Qed.

Lemma prod_bound u v x y m : 0 <= x <= u * p -> 0 <= y <= v * p -> 0 <= u -> 0 <= v -> u * v <= m ->
  x * y <= m * p * p.
Proof.
  intros. pose proof (ppos P HW). apply Z.le_trans with ((u * p) * (v * p)).
  - apply Z.mul_le_mono_nonneg; lia.
  - replace (u * p * (v * p)) with ((u * v) * (p * p)) by ring.
    replace (m * p * p) with (m * (p * p)) by ring. apply Z.mul_le_mono_nonneg_r; nia.
Qed.

Lemma rep2_mul j k a b x y : rep2 j a x -> rep2 k b y -> 0 <= j <= 100 -> 0 <= k <= 100 -> 2 * (j * k) <= 255 ->
  srep2 (fp2mul_mont P a b) (qmul FP x y).
Proof.
  intros [H1 H2] [H3 H4] Hj Hk Hjk. destruct a as [a0 a1], b as [b0 b1], x as [x0 x1], y as [y0 y1].
  cbn [fst snd] in *. unfold fp2mul_mont.
  destruct (rep_ladd j j a0 a1 x0 x1 H1 H2 ltac:(lia)) as (Ot1 & Bt1 & Et1).
  destruct (rep_ladd k k b0 b1 y0 y1 H3 H4 ltac:(lia)) as (Ot2 & Bt2 & Et2).
  destruct H1 as (Oa0 & Ba0 & Ea0), H2 as (Oa1 & Ba1 & Ea1), H3 as (Ob0 & Bb0 & Eb0), H4 as (Ob1 & Bb1 & Eb1).
  pose proof (ok_bound P HW _ Oa0). pose proof (ok_bound P HW _ Oa1).
  pose proof (ok_bound P HW _ Ob0). pose proof (ok_bound P HW _ Ob1).
  pose proof (ppos P HW) as Hpp. pose proof (Rhead P HW) as Hh.
  set (t1 := mp_addfast P a0 a1) in *. set (t2 := mp_addfast P b0 b1) in *.
  assert (Vt1 : val t1 = val a0 + val a1).
  { apply (mp_addfast_val P HW); auto. assert (j * p <= 100 * p) by (apply Z.mul_le_mono_nonneg_r; lia). lia. }
  assert (Vt2 : val t2 = val b0 + val b1).
  { apply (mp_addfast_val P HW); auto. assert (k * p <= 100 * p) by (apply Z.mul_le_mono_nonneg_r; lia). lia. }
  destruct (mul_ok2 a0 b0 Oa0 Ob0) as [O1 V1]. destruct (mul_ok2 a1 b1 Oa1 Ob1) as [O2 V2].
  destruct (mul_ok2 t1 t2 Ot1 Ot2) as [O3 V3].
  set (m1 := mp_mul w a0 b0 n) in *. set (m2 := mp_mul w a1 b1 n) in *. set (m3 := mp_mul w t1 t2 n) in *.
  assert (Hcross : val m3 - val m1 - val m2 = val a0 * val b1 + val a1 * val b0).
  { rewrite V1, V2, V3, Vt1, Vt2. ring. }
  assert (0 <= val a0 * val b1) by (apply Z.mul_nonneg_nonneg; lia).
  assert (0 <= val a1 * val b0) by (apply Z.mul_nonneg_nonneg; lia).
  destruct (dblsub_ok m1 m2 m3 O1 O2 O3 ltac:(lia)) as [O4 V4].
  assert (HRp : 2 * (j * k) * p * p < R * p).
  { apply Z.mul_lt_mono_pos_r; auto. apply Z.le_lt_trans with (255 * p); [|lia].
    apply Z.mul_le_mono_nonneg_r; lia. }
  assert (M00 : val a0 * val b0 <= (j * k) * p * p) by (apply (prod_bound j k); lia).
  assert (M11 : val a1 * val b1 <= (j * k) * p * p) by (apply (prod_bound j k); lia).
  assert (M01 : val a0 * val b1 <= (j * k) * p * p) by (apply (prod_bound j k); lia).
  assert (M10 : val a1 * val b0 <= (j * k) * p * p) by (apply (prod_bound j k); lia).
  assert (0 <= val a0 * val b0) by (apply Z.mul_nonneg_nonneg; lia).
  assert (HD : 2 * (j * k) * p * p = (j * k) * p * p + (j * k) * p * p) by ring.
  destruct (subadd_ok m1 m2 O1 O2 ltac:(lia) ltac:(lia)) as [O5 V5].
  split; cbn [fst snd qmul].
  - apply rdc_rep; auto.
    + rewrite V5. destruct (Z.ltb_spec (val m1) (val m2)); lia.
    + transitivity (mkF p (val m1 - val m2)).
      * rewrite V5. destruct (_ <? _); auto. apply val_add_mul.
      * rewrite mkF_sub, V1, V2, !mkF_mul, <- !toF_R, Ea0, Ea1, Eb0, Eb1.
        cbn [FP FpF K kmul ksub]. ring.
  - apply rdc_rep; auto; [lia|].
    rewrite V4, Hcross, mkF_add, !mkF_mul, <- !toF_R, Ea0, Ea1, Eb0, Eb1.
    cbn [FP FpF K kmul kadd]. ring.
Qed.

Lemma rep2_inv a x : rep2 2 a x -> srep2 (fp2inv_mont P a) (qinv FP x).
Proof.
  intros [H1 H2]. destruct a as [a0 a1], x as [x y]. cbn [fst snd] in *. unfold fp2inv_mont, qinv, qnorm.
  cbn [fst snd].
  assert (Hi : srep (fpinv_mont P (fpadd P (fpsqr_mont P a0) (fpsqr_mont P a1))) (finv (fadd (fmul x x) (fmul y y)))).
  { apply rep_inv, rep_add; apply srep_rep, (rep_sqr 2); auto; lia. }
  apply srep_rep in Hi.
  split; cbn [fst snd].
  - apply (rep_mul 2 2); [exact H1|exact Hi|lia..].
  - apply (rep_mul 2 2); [apply rep_neg; exact H2|exact Hi|lia..].
Qed.
End P.
