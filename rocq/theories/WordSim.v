(** The digit operations simulate the field operations. *)
From Coq Require Import Znumtheory Field.
From Verif Require Import Base BaseP Digits DigitsP CombaP Out Params Fp Wf FpP Fld FpRep FpMisc FpMiscP Ops Sim WordOps FieldOps.
Set Bullet Behavior "Strict Subproofs".

(** fprand stays below 2p: true on all 64-bit targets and for p434 and p503 on 32-bit targets (C34). *)
Definition rand_ok (P : params) : Prop := forall b, length b = felm_bytes P -> digits 256 b ->
  ok P (fprand P b) /\ valB (2 ^ radix P) (fprand P b) < 2 * par_p P.

Section WordSim.
Variable P : params.
Hypothesis HW : Wf P.
Hypothesis Hp : prime (par_p P).
Hypothesis HR : rand_ok P.
Local Notation w := (radix P).
Local Notation n := (nwords P).
Local Notation p := (par_p P).
Local Notation R := (par_R P).
Local Notation val := (valB (2 ^ radix P)).
Local Notation ok := (ok P).
Local Notation rep := (rep P).
Local Notation srep := (srep P).
Local Notation rep2 := (rep2 P HW Hp).
Local Notation srep2 := (srep2 P HW Hp).
Local Notation toF := (toF P).
Local Notation FP := (FP P HW Hp).
Local Notation FP2 := (FP2 P HW Hp).
Local Notation OW := (word_ops P).
Local Notation OF := (field_ops P HW Hp).
Definition Fth3 := Fp_field p Hp.
Add Field FpFd3 : Fth3.

Ltac two := pose proof (ppos P HW) as Hpp; pose proof (Rhead P HW) as HRh; pose proof (Rpos P HW) as HRp.
Lemma fpadd_val' a b : ok a -> ok b -> val a + val b < R ->
  ok (fpadd P a b) /\
  val (fpadd P a b) = if val a + val b <? 2 * p then val a + val b else val a + val b - 2 * p.
Proof.
  intros Ha Hb H. two. unfold fpadd.
  destruct (addc_ok P HW a b Ha Hb) as (c1 & r1 & E1 & O1 & C1 & V1). rewrite E1.
  destruct (subc_ok P HW r1 (w_px2 P) O1 (wf_px2 P HW)) as (c2 & r2 & E2 & O2 & C2 & V2). rewrite E2.
  destruct (masked_ok P HW c2 (w_px2 P) C2 (wf_px2 P HW)) as [O3 V3].
  destruct (addc_ok P HW r2 _ O2 O3) as (c4 & r4 & E4 & O4 & C4 & V4). rewrite E4.
  split; auto. rewrite V3 in V4. rewrite (wf_vpx2 P HW) in *.
  pose proof (ok_bound P HW _ Ha). pose proof (ok_bound P HW _ Hb). pose proof (ok_bound P HW _ O1).
  pose proof (ok_bound P HW _ O2). pose proof (ok_bound P HW _ O4).
  assert (c1 = 0) by (apply (carry_unique P HW (val a + val b) (val r1)); lia). subst c1.
  destruct (Z.ltb_spec (val a + val b) (2 * p)).
  - assert (c2 = 1) by (assert (- c2 = -1) by (apply (carry_unique P HW (val r1 - 2 * p) (val r2)); lia); lia).
    subst c2.
    assert (c4 = 1) by (apply (carry_unique P HW (val r2 + 1 * (2 * p)) (val r4)); lia). lia.
  - assert (c2 = 0) by (assert (- c2 = 0) by (apply (carry_unique P HW (val r1 - 2 * p) (val r2)); lia); lia).
    subst c2.
    assert (c4 = 0) by (apply (carry_unique P HW (val r2 + 0 * (2 * p)) (val r4)); lia). lia.
Qed.
Ltac prep := two;
  repeat match goal with
  | H : rep _ _ _ |- _ => let O := fresh "O" in let B := fresh "B" in let E := fresh "E" in
                          destruct H as (O & B & E); pose proof (ok_bound P HW _ O)
  | H : srep _ _ |- _ => let O := fresh "O" in let B := fresh "B" in let E := fresh "E" in
                          destruct H as (O & B & E); pose proof (ok_bound P HW _ O)
  end; subst.
Lemma rep_add_g j k a b x y : rep j a x -> rep k b y -> j + k <= 255 -> rep (Z.max 2 (j + k - 2)) (fpadd P a b) (fadd x y).
Proof.
  intros H1 H2 Hjk. prep.
  assert ((j + k) * p <= 255 * p) by (apply Z.mul_le_mono_nonneg_r; lia).
  destruct (fpadd_val' a b) as [Oc V]; auto; [lia|].
  split; [|split]; auto.
  - rewrite V. destruct (Z.ltb_spec (val a + val b) (2 * p)).
    + transitivity (2 * p); [lia|]. apply Z.mul_le_mono_nonneg_r; lia.
    + transitivity ((j + k - 2) * p); [lia|]. apply Z.mul_le_mono_nonneg_r; lia.
  - apply (toF_intro P HW Hp). rewrite V.
    transitivity (mkF p (val a + val b)).
    + destruct (_ <? _); auto. replace (val a + val b - 2 * p) with (val a + val b + -2 * p) by ring.
      apply val_add_mul.
    + rewrite mkF_add, <- !(toF_R P HW Hp). ring.
Qed.
Lemma rep_sub_g j k a b x y : rep j a x -> rep k b y -> k <= 2 -> rep (Z.max 2 j) (fpsub P a b) (fsub x y).
Proof.
  intros H1 H2 Hk. prep.
  assert (k * p <= 2 * p) by (apply Z.mul_le_mono_nonneg_r; lia).
  destruct (fpsub_val P HW a b) as [Oc V]; auto; [lia|].
  split; [|split]; auto.
  - rewrite V. destruct (Z.ltb_spec (val a) (val b)).
    + transitivity (2 * p); [lia|]. apply Z.mul_le_mono_nonneg_r; lia.
    + transitivity (j * p); [lia|]. apply Z.mul_le_mono_nonneg_r; lia.
  - apply (toF_intro P HW Hp). rewrite V.
    transitivity (mkF p (val a - val b)).
    + destruct (_ <? _); auto. apply val_add_mul.
    + rewrite mkF_sub, <- !(toF_R P HW Hp). ring.
Qed.
Lemma srep_sub_g a b x y : srep a x -> rep 2 b y -> srep (fpsub P a b) (fsub x y).
Proof.
  intros H1 H2. pose proof (rep_sub_g 2 2 a b x y (srep_rep P _ _ H1) H2 ltac:(lia)) as (_ & _ & E).
  prep. destruct (fpsub_val P HW a b) as [Oc V]; auto; [lia|].
  split; [|split]; auto. rewrite V. destruct (Z.ltb_spec (val a) (val b)); lia.
Qed.

(** ** Square root *)
Lemma exp4 : (p + 1) / 4 = 2 ^ Z.of_nat (e2 P - 2) * 3 ^ Z.of_nat (e3 P).
Proof.
  pose proof (wf_shape P HW) as E. pose proof (wf_e2 P HW) as E2.
  rewrite E. replace (e2 P) with (2 + (e2 P - 2))%nat at 1 by lia.
  rewrite Nat2Z.inj_add, Z.pow_add_r by lia. change (2 ^ Z.of_nat 2) with 4.
  rewrite <- Z.mul_assoc, Z.mul_comm, Z.div_mul by lia. reflexivity.
Qed.
Lemma root_rep a x : rep 2 a x -> rep 2 (fp_root P a) (fpow x ((p + 1) / 4)).
Proof.
  intros H. unfold fp_root. rewrite exp4.
  assert (H2 : rep 2 (Nat.iter (e2 P - 2) (fpsqr_mont P) a) (fpow x (2 ^ Z.of_nat (e2 P - 2)))).
  { rewrite <- (Z.mul_1_r (2 ^ _)). apply iter_sqr; auto; [lia|]. now rewrite (fpow_1 P). }
  assert (0 <= 2 ^ Z.of_nat (e2 P - 2)) by (apply Z.pow_nonneg; lia).
  generalize dependent (Nat.iter (e2 P - 2) (fpsqr_mont P) a). generalize dependent (2 ^ Z.of_nat (e2 P - 2)).
  intros e He t Ht. induction (e3 P) as [|k IH].
  - cbn [Nat.iter]. change (3 ^ Z.of_nat 0) with 1. now rewrite Z.mul_1_r.
  - cbn [Nat.iter nat_rect].
    change (rep 2 ((fun t1 => fpmul_mont P t1 (fpsqr_mont P t1)) (Nat.iter k (fun t1 => fpmul_mont P t1 (fpsqr_mont P t1)) t))
              (fpow x (e * 3 ^ Z.of_nat (S k)))). cbv beta.
    assert (0 <= e * 3 ^ Z.of_nat k) by (apply Z.mul_nonneg_nonneg; [lia|apply Z.pow_nonneg; lia]).
    replace (e * 3 ^ Z.of_nat (S k)) with (e * 3 ^ Z.of_nat k + (e * 3 ^ Z.of_nat k + e * 3 ^ Z.of_nat k))
      by (rewrite Nat2Z.inj_succ, Z.pow_succ_r by lia; ring).
    rewrite !(fpow_add P) by lia.
    apply (srep_rep P), (rep_mul P HW Hp 2 2); try lia; [apply IH|].
    apply (srep_rep P), (rep_sqr P HW Hp 2); [apply IH|lia].
Qed.
Lemma memcmp_eq v u : ok v -> ok u -> val v < p -> val u < p ->
  firstn (fp_bytes P) (bytes_of_digits w v) = firstn (fp_bytes P) (bytes_of_digits w u) <-> val v = val u.
Proof.
  intros Hv Hu Lv Lu. rewrite !(FpMiscP.bytes_ok P HW) by auto.
  pose proof (wf_bytes P HW) as [_ HB]. pose proof (p_lt_bytes P HW).
  pose proof (ok_bound P HW _ Hv). pose proof (ok_bound P HW _ Hu).
  rewrite !firstn_toB by (unfold digit_bytes; lia).
  split; [|now intros ->]. intros E. apply (f_equal (valB 256)) in E.
  rewrite !valB_toB in E by lia. rewrite !Z.mod_small in E by lia. auto.
Qed.
Lemma fpeq_dec a b x y : srep a x -> srep b y ->
  negb (fp_equal P a b =? 0) = if Fp_dec p x y then true else false.
Proof. intros. rewrite (fp_equal_spec P HW Hp a b x y) by auto. destruct (Fp_dec p x y); reflexivity. Qed.
Lemma val_rep a x b y : ok a -> ok b -> toF a = x -> toF b = y -> val a < p -> val b < p -> (val a = val b <-> x = y).
Proof.
  intros Oa Ob <- <- La Lb. pose proof (ok_bound P HW _ Oa). pose proof (ok_bound P HW _ Ob).
  rewrite <- (toF_eq P HW Hp). rewrite !Z.mod_small by lia. tauto.
Qed.
Lemma sqrt_rep a x : srep2 a x -> rep2 2 (fp2sqrt_word P a) (qsqrt P HW Hp x).
Proof.
  intros [Ha Hb]. destruct a as [a b], x as [x y]. cbn [fst snd] in *. unfold fp2sqrt_word, qsqrt. cbv zeta.
  pose proof (rep_zero P HW Hp) as H0. pose proof (srep_rep P _ _ H0) as H0'.
  pose proof (srep_rep P _ _ Ha) as Ha'. pose proof (srep_rep P _ _ Hb) as Hb'.
  rewrite (fpeq_dec b (fpzero P) y f0) by auto.
  destruct (Fp_dec p y f0) as [E|N].
  - pose proof (root_rep _ _ Ha') as H1.
    rewrite (fpeq_dec (fpsqr_mont P (fp_root P a)) a (fmul (fpow x ((p + 1) / 4)) (fpow x ((p + 1) / 4))) x);
      [|apply (rep_sqr P HW Hp 2); auto; lia|auto].
    destruct (Fp_dec p _ x); split; cbn [fst snd]; auto.
  - assert (N1 : rep 2 (fpadd P (fpsqr_mont P a) (fpsqr_mont P b)) (fadd (fmul x x) (fmul y y))).
    { apply (rep_add P HW Hp); apply (srep_rep P), (rep_sqr P HW Hp 2); auto; lia. }
    pose proof (root_rep _ _ N1) as S1.
    set (s := fpow (fadd (fmul x x) (fmul y y)) ((p + 1) / 4)) in *.
    set (t := fp_root P _) in *.
    pose proof (rep_div2 P HW Hp _ _ (rep_add P HW Hp _ _ _ _ Ha' S1)) as V1.
    destruct (rep_corr P HW Hp _ _ V1) as [V2 V3].
    set (v := fdiv (fadd x s) (mkF p 2)) in *. set (vw := fpcorrection P _) in *.
    assert (V2' : rep 2 vw v) by (eapply rep_le; eauto; lia).
    pose proof (chain_rep P HW Hp _ _ V2') as C1.
    set (c := fpow v ((p - 3) / 4)) in *. set (cw := fpinv_chain_mont P vw) in *.
    pose proof (rep_mul P HW Hp 2 2 _ _ _ _ V2' C1 ltac:(lia) ltac:(lia) ltac:(lia)) as T1.
    pose proof (rep_mul P HW Hp 2 2 _ _ _ _ C1 Hb' ltac:(lia) ltac:(lia) ltac:(lia)) as T2.
    pose proof (rep_div2 P HW Hp _ _ (srep_rep P _ _ T2)) as T3.
    pose proof (rep_sqr P HW Hp 2 _ _ (srep_rep P _ _ T1) ltac:(lia)) as U1.
    destruct (rep_corr P HW Hp _ _ U1) as [U2 U3].
    set (u := fpcorrection P (fpsqr_mont P (fpmul_mont P vw cw))) in *.
    assert (MC : firstn (fp_bytes P) (bytes_of_digits w vw) = firstn (fp_bytes P) (bytes_of_digits w u) <->
                 v = fmul (fmul v c) (fmul v c)).
    { rewrite memcmp_eq; auto; [|apply V2|apply U2].
      apply val_rep; auto; [apply V2|apply U2|apply V2|apply U2]. }
    destruct (list_eq_dec _ _ _) as [E|NE]; destruct (Fp_dec p v _) as [E'|NE']; try tauto;
      split; cbn [fst snd]; auto using (srep_rep P), (rep_neg P HW Hp).
Qed.

Lemma lt_rep a b x y : rep2 2 a x -> rep2 2 b y -> lt_word P a b = qlt P HW Hp x y.
Proof.
  intros [A1 A2] [B1 B2]. unfold lt_word, qlt. cbv zeta.
  rewrite (fp_lt_mont P HW Hp 2 _ _ _ _ ltac:(lia) A1 B1), (fp_lt_mont P HW Hp 2 _ _ _ _ ltac:(lia) B1 A1),
    (fp_lt_mont P HW Hp 2 _ _ _ _ ltac:(lia) A2 B2).
  destruct (Z.ltb_spec (fval (fst x)) (fval (fst y))), (Z.ltb_spec (fval (fst y)) (fval (fst x))),
    (Z.eqb_spec (fval (fst x)) (fval (fst y))), (Z.ltb_spec (fval (snd x)) (fval (snd y))); try lia; reflexivity.
Qed.
Lemma map_mod_bytes tp : digits 256 (map (fun x => x mod 256) tp).
Proof. induction tp; constructor; auto. apply Z.mod_pos_bound; lia. Qed.
Lemma rand_rep tp : out_rel (fun a b => srep2 (fst a) (fst b) /\ snd a = snd b) (rand_word P tp) (qrand P HW Hp tp).
Proof.
  unfold rand_word, qrand. destruct (Nat.ltb_spec (length tp) (2 * felm_bytes P)); constructor.
  cbn [fst snd]. split; auto. pose proof (map_mod_bytes tp) as D.
  assert (L : length (map (fun x => x mod 256) tp) = length tp) by apply map_length.
  set (b := map _ tp) in *.
  split; cbn [fst snd].
  - destruct (HR (firstn (felm_bytes P) b)); [rewrite firstn_length; lia|now apply digits_firstn|].
    split; [|split]; auto.
  - destruct (HR (firstn (felm_bytes P) (skipn (felm_bytes P) b)));
      [rewrite firstn_length, skipn_length; lia|now apply digits_firstn, digits_skipn|].
    split; [|split]; auto.
Qed.

Lemma two_q : kadd (k1 : FP2) k1 = q2 P HW Hp.
Proof.
  apply (f_equal2 pair); symmetry; [apply (mkF_add p 1 1)|apply (mkF_add p 0 0)].
Qed.
Lemma add_0_r' (y : Fp p) : y = fadd y f0.
Proof. ring. Qed.
Lemma unit_rep : srep (upd 0 1 (fpzero P)) (toF (vunit P)).
Proof. two. destruct (ok_unit P HW) as [O V]. split; [|split]; auto. unfold vunit in *. pose proof (p_ge P HW). lia. Qed.
Definition elem_ok (b : list Z) : Prop := digits 256 b /\ length b = (2 * fp_bytes P)%nat.

Definition word_sim : sim OW OF.
Proof.
  refine (mkSim OW OF rep2 srep2 elem_ok _ _ _ _ _ _ _ _ _ _ _ _ _ _ _ _ _ _ _ _ _ _ _);
    cbn [T word_ops field_ops fld_ops o_zero o_one o_unit o_add o_sub o_madd o_msub o_mul o_sqr o_neg o_inv o_div2
         o_add1 o_sqrt o_eq o_lt o_enc o_dec o_rand K FpRep.FP2 QF kadd ksub kmul kopp kinv kdiv k0 k1 kdec]; intros.
  - now apply srep2_rep2.
  - eapply rep2_le; eauto. now apply Z.leb_le.
  - split; apply (rep_zero P HW Hp).
  - split; cbn [fst snd q1]; [apply (rep_one P HW Hp)|apply (rep_zero P HW Hp)].
  - split; cbn [fst snd]; [apply unit_rep|apply (rep_zero P HW Hp)].
  - destruct H, H0. apply Z.leb_le in H1. split; cbn [fst snd fp2add qadd]; apply rep_add_g; auto.
  - now apply srep2_add.
  - destruct H, H0. apply andb_prop in H1 as [H1 H1']. apply Z.leb_le in H1, H1'.
    split; cbn [fst snd fp2sub qsub]; eapply rep_sub_g; eauto.
  - destruct H, H0. split; cbn [fst snd fp2sub qsub]; eapply srep_sub_g; eauto.
  - apply rep2_ladd; auto. now apply Z.leb_le.
  - apply andb_prop in H1 as [H1 H1']. apply Z.leb_le in H1, H1'. eapply rep2_lsub; eauto.
  - repeat match goal with H : _ && _ = true |- _ => apply andb_prop in H as [? ?] end.
    repeat match goal with H : (_ <=? _) = true |- _ => apply Z.leb_le in H end.
    apply (rep2_mul P HW Hp j k); auto; lia.
  - unfold mul3. cbn [T word_ops field_ops fld_ops o_madd o_mul o_sqr K FpRep.FP2 QF kadd kmul].
    assert (A : rep2 4 (mp2_add P (fp2sqr_mont P v) c) (qadd FP (qmul FP z z) t)).
    { apply (rep2_ladd P HW Hp 2 2); auto; [|lia]. apply srep2_rep2, (rep2_sqr P HW Hp 4); auto; lia. }
    apply (rep2_mul P HW Hp 2 10); auto; try lia.
    apply (rep2_ladd P HW Hp 2 8); auto; [apply srep2_rep2, (rep2_sqr P HW Hp 4); auto; lia| |lia].
    now apply (rep2_ladd P HW Hp 4 4).
  - apply andb_prop in H0 as [? ?].
    repeat match goal with H : (_ <=? _) = true |- _ => apply Z.leb_le in H end.
    apply (rep2_sqr P HW Hp j); auto.
  - now apply rep2_neg.
  - now apply rep2_inv.
  - change (qadd FP (q1 FP) (q1 FP)) with (kadd (k1 : FP2) k1). rewrite two_q. now apply rep2_div2.
  - destruct H as [H1 H2]. destruct x as [x y]. split; cbn [fst snd qadd q1].
    + apply (srep_add P HW Hp); auto. apply (rep_one P HW Hp).
    + replace (kadd y k0) with y; auto. exact (add_0_r' y).
  - now apply sqrt_rep.
  - rewrite (fp2_equal_spec P HW Hp a b x y) by auto. destruct (K2_dec _ x y); reflexivity.
  - now apply lt_rep.
  - now apply (fp2_encode_spec P HW Hp 2).
  - destruct H. apply fp2_decode_spec; auto; apply (ok_zero P HW).
Defined.
Lemma word_rand : rand_sim word_sim.
Proof. exact rand_rep. Qed.
End WordSim.
