(** The operations of the x86-64 build of p503 simulate the field operations, as X64P.v for p434.  R is only about 1000 p here. *)
From Coq Require Import Znumtheory Field.
From Verif Require Import Base BaseP Digits DigitsP Out Params Fp Wf FpP Fld FpRep FpMisc FpMiscP Ops Sim WordOps FieldOps WordSim
  Asm AsmP503 AsmP AsmRedP AsmMul434 AsmAdd434 AsmSqr434 AsmRun434 AsmMul503 AsmAdd503 AsmFp503 AsmSqr503 AsmDbl503 AsmRun503 X64 X64P X503.
Set Bullet Behavior "Strict Subproofs".

Section Vals.
Variable P : params.
Hypothesis HW : Wf P.
Hypothesis Hp : prime (par_p P).
Local Notation p := (par_p P).
Local Notation R := (par_R P).
Local Notation val := (valB (2 ^ radix P)).
Local Notation ok := (Wf.ok P).
Local Notation rep := (FpRep.rep P).
Local Notation rep2 := (FpRep.rep2 P HW Hp).
(** The square of a value is little above p. *)
Hypothesis Hhead : 1000 * p <= R.
Lemma mul_tight5 j k a b x y : rep j a x -> rep k b y -> 0 <= j -> 0 <= k -> j * k <= 64 -> 10 * val (fpmul_mont P a b) <= 11 * p.
Proof.
  intros (Oa & Ba & _) (Ob & Bb & _) Hj Hk Hjk. pose proof (ppos P HW) as Hpp.
  pose proof (ok_bound P HW _ Oa) as Va. pose proof (ok_bound P HW _ Ob) as Vb.
  assert (X : val a * val b <= 64 * p * p) by (apply (prod_bound P HW j k); auto; lia).
  assert (Y : 10 * (64 * p * p) <= R * p) by (replace (10 * (64 * p * p)) with (640 * p * p) by ring; apply Z.mul_le_mono_nonneg_r; lia).
  assert (HRp : 0 < R) by lia.
  assert (Y' : val a * val b < R * p) by (pose proof (Z.mul_pos_pos R p HRp Hpp); lia).
  destruct (fpmul_mont_val P HW a b Oa Ob Y') as (_ & _ & q & Hq & E).
  assert (Z : q * p < R * p) by (apply Z.mul_lt_mono_pos_r; lia).
  apply Z.mul_le_mono_pos_l with R; [exact HRp|].
  replace (R * (10 * val (fpmul_mont P a b))) with (10 * (R * val (fpmul_mont P a b))) by ring. rewrite E.
  replace (R * (11 * p)) with (11 * (R * p)) by ring. lia.
Qed.
Lemma sqr_tight5 a x : rep2 4 a x -> 10 * val (fst (fp2sqr_mont P a)) <= 11 * p /\ 10 * val (snd (fp2sqr_mont P a)) <= 11 * p.
Proof.
  intros [H1 H2]. destruct a as [a0 a1], x as [x y]. cbn [fst snd] in *. unfold fp2sqr_mont. cbn [fst snd]. split.
  - apply (mul_tight5 8 8 _ _ (fadd x y) (fsub x y)); try lia; [apply (rep_ladd P HW Hp 4 4)|apply (rep_lsub4 P HW Hp 4 4)]; auto; lia.
  - apply (mul_tight5 8 4 _ _ (fadd x x) y); try lia; auto. apply (rep_ladd P HW Hp 4 4); auto; lia.
Qed.
(** A value below 2p that is small enough. *)
Lemma sum55 a b c x y z : rep 2 a x -> rep 2 b y -> rep 2 c z -> 10 * val a <= 11 * p -> 10 * val b <= 11 * p ->
  let t := mp_addfast P b c in rep 8 (mp_addfast P a (mp_addfast P t t)) (fadd x (fadd (fadd y z) (fadd y z))).
Proof.
  intros Ha Hb Hc Ba Bb t.
  pose proof (rep_ladd P HW Hp 2 2 _ _ _ _ Hb Hc ltac:(lia)) as H1. fold t in H1.
  pose proof (rep_ladd P HW Hp 4 4 _ _ _ _ H1 H1 ltac:(lia)) as H2.
  pose proof (rep_ladd P HW Hp 2 8 _ _ _ _ Ha H2 ltac:(lia)) as (O3 & _ & E3).
  split; [exact O3|]. split; [|exact E3].
  destruct Ha as (Oa & Va & _), Hb as (Ob & Vb & _), Hc as (Oc & Vc & _). pose proof (ppos P HW) as Hpp.
  destruct (mp_addfast_val P HW b c Ob Oc ltac:(lia)) as [Ot Vt]. fold t in Ot, Vt.
  destruct (mp_addfast_val P HW t t Ot Ot ltac:(lia)) as [Ou Vu].
  destruct (mp_addfast_val P HW a _ Oa Ou ltac:(lia)) as [_ ->]. lia.
Qed.
End Vals.

(** ** The calls *)
Local Notation P := (P503 T64).
Local Notation ok := (Wf.ok P).
Local Notation vl := (valB (2 ^ radix P)).
Lemma ok75 a : ok a -> length a = 8%nat /\ Forall word a.
Proof. intros [L D]. split; auto. Qed.
Lemma words_ok5 a : length a = 8%nat -> Forall word a -> ok a.
Proof. intros L D. split; auto. Qed.
Lemma start75 a b : length a = 8%nat -> length b = 8%nat -> wat (mem (start a b)) 1000 0 8 = a /\ wat (mem (start a b)) 2000 0 8 = b.
Proof.
  intros La Lb. unfold start. cbn [mem]. split.
  - rewrite <- La. apply put_wat.
  - rewrite put_wat_other by (rewrite La; lia). rewrite <- Lb. apply put_wat.
Qed.
Lemma start145 a0 a1 b0 b1 : length a0 = 8%nat -> length a1 = 8%nat -> length b0 = 8%nat -> length b1 = 8%nat ->
  let m := mem (start (a0 ++ a1) (b0 ++ b1)) in
  wat m 1000 0 8 = a0 /\ wat m 1000 64 8 = a1 /\ wat m 2000 0 8 = b0 /\ wat m 2000 64 8 = b1.
Proof.
  intros La La' Lb Lb'. unfold start. cbn [mem]. rewrite !put_app, La, Lb. change (0 + 8 * Z.of_nat 8) with 64.
  repeat split.
  - rewrite put_wat_other by (rewrite La'; lia). rewrite <- La. apply put_wat.
  - rewrite <- La'. apply put_wat.
  - rewrite !put_wat_other by (rewrite ?La, ?La', ?Lb'; lia). rewrite <- Lb. apply put_wat.
  - rewrite !put_wat_other by (rewrite ?La, ?La'; lia). rewrite <- Lb'. apply put_wat.
Qed.
Lemma start145' a0 a1 : length a0 = 8%nat -> length a1 = 8%nat ->
  let m := mem (start (a0 ++ a1) []) in wat m 1000 0 8 = a0 /\ wat m 1000 64 8 = a1.
Proof.
  intros La La'. unfold start. cbn [mem put]. rewrite !put_app, La. change (0 + 8 * Z.of_nat 8) with 64. split.
  - rewrite put_wat_other by (rewrite La'; lia). rewrite <- La. apply put_wat.
  - rewrite <- La'. apply put_wat.
Qed.

Lemma fpmul_x_eq5 a b : ok a -> ok b -> vl a + p503 <= W ^ 8 -> vl a * vl b < W ^ 8 * p503 -> fpmul_x5 a b = fpmul_mont P a b.
Proof.
  intros Ha Hb H1 H2. apply ok75 in Ha as [La Wa], Hb as [Lb Wb]. destruct (start75 a b La Lb) as [Ea Eb].
  pose proof (fpmul503_eq (start a b)) as H. cbv zeta in H. change (rg (start a b) RDI) with 1000 in H. change (rg (start a b) RSI) with 2000 in H.
  rewrite Ea, Eb in H. exact (proj2 (proj2 (H Wa Wb H1 H2))).
Qed.
Lemma fpadd_x_eq5 a b : ok a -> ok b -> fpadd_x5 a b = fpadd P a b.
Proof.
  intros Ha Hb. apply ok75 in Ha as [La Wa], Hb as [Lb Wb]. destruct (start75 a b La Lb) as [Ea Eb].
  pose proof (fpadd503_ok (start a b)) as H. cbv zeta in H. change (rg (start a b) RDI) with 1000 in H. change (rg (start a b) RSI) with 2000 in H.
  rewrite Ea, Eb in H. exact (proj2 (proj2 (H Wa Wb))).
Qed.
Lemma fpsub_x_eq5 a b : ok a -> ok b -> fpsub_x5 a b = fpsub P a b.
Proof.
  intros Ha Hb. apply ok75 in Ha as [La Wa], Hb as [Lb Wb]. destruct (start75 a b La Lb) as [Ea Eb].
  pose proof (fpsub503_ok (start a b)) as H. cbv zeta in H. change (rg (start a b) RDI) with 1000 in H. change (rg (start a b) RSI) with 2000 in H.
  rewrite Ea, Eb in H. exact (proj2 (proj2 (H Wa Wb))).
Qed.
Lemma mp_sub_x_eq5 a b : ok a -> ok b -> mp_sub_p2_x5 a b = mp_sub_p2 P a b.
Proof.
  intros Ha Hb. apply ok75 in Ha as [La Wa], Hb as [Lb Wb]. destruct (start75 a b La Lb) as [Ea Eb].
  pose proof (mp_sub503_p2_ok (start a b)) as H. cbv zeta in H. change (rg (start a b) RDI) with 1000 in H. change (rg (start a b) RSI) with 2000 in H.
  rewrite Ea, Eb in H. exact (proj2 (proj2 (H Wa Wb))).
Qed.
Lemma mp_add_x_eq5 a b : ok a -> ok b -> mp_add_x5 a b = mp_addfast P a b.
Proof.
  intros Ha Hb. apply ok75 in Ha as [La Wa], Hb as [Lb Wb]. destruct (start75 a b La Lb) as [Ea Eb].
  pose proof (mp_add503_ok (start a b)) as H. cbv zeta in H. change (rg (start a b) RDI) with 1000 in H. change (rg (start a b) RSI) with 2000 in H.
  change (rg (start a b) RDX) with 3000 in H.
  rewrite Ea, Eb in H. exact (proj2 (proj2 (H Wa Wb ltac:(right; right; lia) ltac:(right; right; lia)))).
Qed.

Section Sim.
Hypothesis HW : Wf P.
Hypothesis Hp : prime (par_p P).
Local Notation rep := (FpRep.rep P).
Local Notation srep := (FpRep.srep P).
Local Notation rep2 := (FpRep.rep2 P HW Hp).
Local Notation srep2 := (FpRep.srep2 P HW Hp).
Local Notation OF := (field_ops P HW Hp).
Local Notation FP := (FpRep.FP P HW Hp).
Lemma head503 : 1000 * p503 <= W ^ 8.
Proof. apply leb_ok. reflexivity. Qed.
Lemma bytes503 : 256 ^ Z.of_nat (fp_bytes P) + p503 <= W ^ 8.
Proof. apply leb_ok. reflexivity. Qed.
Lemma R2_lt5 : vl (w_R2 P) < p503.
Proof. apply ltb_ok. reflexivity. Qed.
Lemma unit_le5 : vl (upd 0 1 (fpzero P)) = 1.
Proof. reflexivity. Qed.
Lemma rep_words5 k a x : rep k a x -> length a = 8%nat /\ Forall word a /\ 0 <= valB W a <= k * p503.
Proof.
  intros (O & B & _). pose proof (ok_bound P HW a O) as [H _]. apply ok75 in O as [L F]. split; [exact L|]. split; [exact F|]. split; [exact H|exact B].
Qed.
(** Products in range, by numbers. *)
Lemma in_range5 q R a b j k : 1000 * q <= R -> 0 < q -> 0 <= a <= j * q -> 0 <= b <= k * q -> 0 <= j <= 100 -> 0 <= k -> j * k <= 255 ->
  a + q <= R /\ a * b < R * q.
Proof.
  intros HR Hq Ha Hb Hj Hk Hjk. assert (J : j * q <= 100 * q) by (apply Z.mul_le_mono_nonneg_r; lia). split; [lia|].
  apply Z.le_lt_trans with ((j * q) * (k * q)); [apply Z.mul_le_mono_nonneg; lia|].
  replace (j * q * (k * q)) with ((j * k) * q * q) by ring. apply Z.mul_lt_mono_pos_r; [exact Hq|].
  apply Z.le_lt_trans with (255 * q); [apply Z.mul_le_mono_nonneg_r; lia|lia].
Qed.
Lemma mul_x5 j k a b x y : rep j a x -> rep k b y -> 0 <= j <= 100 -> 0 <= k -> j * k <= 255 -> fpmul_x5 a b = fpmul_mont P a b.
Proof.
  intros Ha Hb Hj Hk Hjk. destruct (rep_words5 _ _ _ Ha) as (_ & _ & Va). destruct (rep_words5 _ _ _ Hb) as (_ & _ & Vb).
  destruct (in_range5 p503 (W ^ 8) (valB W a) (valB W b) j k head503 p503_pos Va Vb Hj Hk Hjk) as [H1 H2].
  apply fpmul_x_eq5; [exact (proj1 Ha)|exact (proj1 Hb)|exact H1|exact H2].
Qed.
Lemma sqr_x5 a x : rep2 4 a x -> fp2sqr_x5 a = fp2sqr_mont P a.
Proof.
  intros [H1 H2]. destruct a as [a0 a1], x as [x y]. cbn [fst snd] in *.
  destruct (rep_words5 _ _ _ H1) as (L0 & W0 & V0). destruct (rep_words5 _ _ _ H2) as (L1 & W1 & V1).
  pose proof (rep_ladd P HW Hp 4 4 _ _ _ _ H1 H2 ltac:(lia)) as T1. pose proof (rep_lsub4 P HW Hp 4 4 _ _ _ _ H1 H2 ltac:(lia) ltac:(lia)) as T2.
  pose proof (rep_ladd P HW Hp 4 4 _ _ _ _ H1 H1 ltac:(lia)) as T3.
  destruct (rep_words5 _ _ _ T1) as (_ & _ & U1). destruct (rep_words5 _ _ _ T2) as (_ & _ & U2). destruct (rep_words5 _ _ _ T3) as (_ & _ & U3).
  destruct (in_range5 p503 (W ^ 8) _ _ 8 8 head503 p503_pos U2 U1 ltac:(lia) ltac:(lia) ltac:(lia)) as [R1 R2]. rewrite Z.mul_comm in R2.
  destruct (in_range5 p503 (W ^ 8) _ _ 4 8 head503 p503_pos V1 U3 ltac:(lia) ltac:(lia) ltac:(lia)) as [R3 R4]. rewrite Z.mul_comm in R4.
  destruct (start145' a0 a1 L0 L1) as [E0 E1]. unfold fp2sqr_x5. cbn [fst snd]. set (s := start (a0 ++ a1) []) in *. cbv zeta in E0, E1.
  assert (Q0 : call25 fp2sqr503_c0_asm (a0 ++ a1) = fst (fp2sqr_mont P (a0, a1))).
  { pose proof (fp2sqr503_c0_ok s) as H. cbv zeta in H. change (rg s RDI) with 1000 in H. change (rg s RSI) with 2000 in H.
    rewrite E0, E1 in H. exact (proj2 (proj2 (H W0 W1 ltac:(right; lia) R1 R2))). }
  assert (Q1 : call25 fp2sqr503_c1_asm (a0 ++ a1) = snd (fp2sqr_mont P (a0, a1))).
  { pose proof (fp2sqr503_c1_ok s) as H. cbv zeta in H. change (rg s RDI) with 1000 in H. change (rg s RSI) with 2000 in H.
    rewrite E0, E1 in H. exact (proj2 (proj2 (H W0 W1 R3 R4))). }
  cbv zeta. rewrite Q0, Q1. symmetry. apply surjective_pairing.
Qed.
Lemma mul2_range5 q R a0 a1 b0 b1 j k : 1000 * q <= R -> 0 < q -> 0 <= a0 <= j * q -> 0 <= a1 <= j * q -> 0 <= b0 <= k * q -> 0 <= b1 <= k * q ->
  0 <= j <= 100 -> 0 <= k <= 8 -> 2 * (j * k) <= 255 ->
  a0 + a1 + q <= R /\ a0 * b1 + a1 * b0 < R * q /\ b1 <= 8 * q /\ a0 * b0 + a1 * (8 * q - b1) < R * q.
Proof.
  intros HR Hq A0 A1 B0 B1 Hj Hk Hjk.
  assert (J : j * q <= 100 * q) by (apply Z.mul_le_mono_nonneg_r; lia). assert (K : k * q <= 8 * q) by (apply Z.mul_le_mono_nonneg_r; lia).
  assert (M : forall u v, 0 <= u <= j * q -> 0 <= v <= k * q -> u * v <= 127 * q * q).
  { intros u v Hu Hv. apply Z.le_trans with ((j * q) * (k * q)); [apply Z.mul_le_mono_nonneg; lia|].
    replace (j * q * (k * q)) with ((j * k) * q * q) by ring. apply Z.mul_le_mono_nonneg_r; [lia|]. apply Z.mul_le_mono_nonneg_r; lia. }
  assert (N : forall u v, 0 <= u <= j * q -> 0 <= v <= 8 * q -> u * v <= 800 * q * q).
  { intros u v Hu Hv. apply Z.le_trans with ((100 * q) * (8 * q)); [apply Z.mul_le_mono_nonneg; lia|]. lia. }
  assert (G : 927 * q * q < R * q) by (apply Z.mul_lt_mono_pos_r; lia).
  pose proof (M a0 b1 A0 B1). pose proof (M a1 b0 A1 B0). pose proof (M a0 b0 A0 B0). pose proof (N a1 (8 * q - b1) A1 ltac:(lia)).
  assert (0 <= q * q) by (apply Z.mul_nonneg_nonneg; lia).
  repeat split; lia.
Qed.
Lemma mul2_x5 j k a b x y : rep2 j a x -> rep2 k b y -> 0 <= j <= 100 -> 0 <= k <= 8 -> 2 * (j * k) <= 255 ->
  srep2 (fp2mul_x5 a b) (qmul FP x y).
Proof.
  intros [A0 A1] [B0 B1] Hj Hk Hjk. destruct a as [a0 a1], b as [b0 b1], x as [x0 x1], y as [y0 y1]. cbn [fst snd] in *.
  destruct (rep_words5 _ _ _ A0) as (La0 & Wa0 & Va0). destruct (rep_words5 _ _ _ A1) as (La1 & Wa1 & Va1).
  destruct (rep_words5 _ _ _ B0) as (Lb0 & Wb0 & Vb0). destruct (rep_words5 _ _ _ B1) as (Lb1 & Wb1 & Vb1).
  destruct (mul2_range5 p503 (W ^ 8) _ _ _ _ j k head503 p503_pos Va0 Va1 Vb0 Vb1 Hj Hk Hjk) as (R1 & R2 & R3 & R4).
  destruct (start145 a0 a1 b0 b1 La0 La1 Lb0 Lb1) as (E0 & E1 & E2 & E3). unfold fp2mul_x5. cbn [fst snd]. cbv zeta in *.
  unfold call35. set (s := start (a0 ++ a1) (b0 ++ b1)) in *.
  assert (HF : Forall word (a0 ++ a1 ++ b0 ++ b1)) by (repeat (apply Forall_app; split; auto)).
  pose proof (fp2mul503_c0_val s) as H0. pose proof (fp2mul503_c1_val s) as H1. cbv zeta in H0, H1.
  change (rg s RDI) with 1000 in H0, H1. change (rg s RSI) with 2000 in H0, H1. change (rg s RDX) with 3000 in H0, H1.
  rewrite E0, E1, E2, E3 in H0, H1.
  specialize (H0 ltac:(right; lia) ltac:(right; lia) HF R1 R3 R4). specialize (H1 HF R1 R2).
  clear - Hp H0 H1 A0 A1 B0 B1. destruct H0 as (_ & _ & F0 & V0 & C0). destruct H1 as (_ & _ & F1 & V1 & C1).
  assert (L0 := wat_length (mem (run fp2mul503_c0_asm s)) 3000 0 8). assert (L1 := wat_length (mem (run fp2mul503_c1_asm s)) 3000 0 8).
  generalize dependent (wat (mem (run fp2mul503_c0_asm s)) 3000 0 8). generalize dependent (wat (mem (run fp2mul503_c1_asm s)) 3000 0 8).
  intros r1 F1 V1 C1 L1 r0 F0 V0 C0 L0.
  destruct A0 as (_ & _ & <-), A1 as (_ & _ & <-), B0 as (_ & _ & <-), B1 as (_ & _ & <-).
  pose proof (mont_toF P HW Hp) as M. pose proof (toF_R P HW Hp) as TR.
  change (2 ^ radix P) with W in M, TR. change (par_R P) with (W ^ 8) in M, TR. change (par_p P) with p503 in M, TR.
  split; cbn [fst snd qmul].
  - split; [now apply words_ok5|]. split; [apply V0|]. apply (M r0 _ _ C0). rewrite mkF_sub, !mkF_mul, <- !TR.
    apply (ring_sub P Hp).
  - split; [now apply words_ok5|]. split; [apply V1|]. apply (M r1 _ _ C1). rewrite mkF_add, !mkF_mul, <- !TR.
    apply (ring_add P Hp).
Qed.
Lemma mul3_x5 a u v c x y z t : rep2 2 a x -> rep2 4 u y -> rep2 4 v z -> rep2 2 c t ->
  srep2 (mul3 x503_ops a u v c) (mul3 OF x y z t).
Proof.
  intros Ha Hu Hv Hc. unfold mul3. cbn [T x503_ops field_ops fld_ops o_madd o_mul o_sqr K FpRep.FP2 QF kadd kmul].
  rewrite (sqr_x5 u y Hu), (sqr_x5 v z Hv).
  pose proof (srep2_rep2 P HW Hp _ _ (rep2_sqr P HW Hp 4 _ _ Hu ltac:(lia))) as [U0 U1].
  pose proof (srep2_rep2 P HW Hp _ _ (rep2_sqr P HW Hp 4 _ _ Hv ltac:(lia))) as [V0 V1]. destruct Hc as [C0 C1].
  destruct (sqr_tight5 P HW Hp head503 u y Hu) as [Tu0 Tu1]. destruct (sqr_tight5 P HW Hp head503 v z Hv) as [Tv0 Tv1].
  pose proof (rep_ladd P HW Hp 2 2 _ _ _ _ V0 C0 ltac:(lia)) as M0. pose proof (rep_ladd P HW Hp 2 2 _ _ _ _ V1 C1 ltac:(lia)) as M1.
  pose proof (rep_ladd P HW Hp 4 4 _ _ _ _ M0 M0 ltac:(lia)) as N0. pose proof (rep_ladd P HW Hp 4 4 _ _ _ _ M1 M1 ltac:(lia)) as N1.
  unfold comp2. cbn [fst snd].
  rewrite (mp_add_x_eq5 _ _ (proj1 V0) (proj1 C0)), (mp_add_x_eq5 _ _ (proj1 V1) (proj1 C1)).
  rewrite (mp_add_x_eq5 _ _ (proj1 M0) (proj1 M0)), (mp_add_x_eq5 _ _ (proj1 M1) (proj1 M1)).
  rewrite (mp_add_x_eq5 _ _ (proj1 U0) (proj1 N0)), (mp_add_x_eq5 _ _ (proj1 U1) (proj1 N1)).
  apply (mul2_x5 2 8); [exact Ha| |lia|lia|lia].
  split; cbn [fst snd qadd].
  - exact (sum55 P HW Hp head503 _ _ _ _ _ _ U0 V0 C0 Tu0 Tv0).
  - exact (sum55 P HW Hp head503 _ _ _ _ _ _ U1 V1 C1 Tu1 Tv1).
Qed.
Lemma ok_mul5 a b : ok a -> ok b -> vl a <= 2 * p503 -> vl b <= 2 * p503 -> fpmul_x5 a b = fpmul_mont P a b.
Proof.
  intros Ha Hb La Lb. pose proof (proj1 (ok_bound P HW a Ha)) as Pa. pose proof (proj1 (ok_bound P HW b Hb)) as Pb.
  destruct (in_range5 p503 (W ^ 8) (vl a) (vl b) 2 2 head503 p503_pos (conj Pa La) (conj Pb Lb) ltac:(lia) ltac:(lia) ltac:(lia)) as [H1 H2].
  now apply fpmul_x_eq5.
Qed.
Lemma ok_unit_x5 a : ok a -> vl a <= 2 * p503 -> fpmul_x5 a (upd 0 1 (fpzero P)) = fpmul_mont P a (upd 0 1 (fpzero P)).
Proof.
  intros Ha La. apply ok_mul5; auto; [apply (ok_unit P HW)|]. rewrite unit_le5. apply leb_ok. reflexivity.
Qed.
Lemma ok_R25 a : ok a -> vl a < 256 ^ Z.of_nat (fp_bytes P) -> fpmul_x5 a (w_R2 P) = fpmul_mont P a (w_R2 P).
Proof.
  intros Ha La. pose proof (proj1 (ok_bound P HW a Ha)) as Pa. pose proof (wf_R2 P HW) as Hb. pose proof (proj1 (ok_bound P HW _ Hb)) as Pb.
  destruct (lt_range p503 (W ^ 8) (vl a) (vl (w_R2 P)) _ La Pa (conj Pb R2_lt5) bytes503) as [H1 H2].
  now apply fpmul_x_eq5.
Qed.
Lemma table_ok5 : okt (inv_table P) (upd 0 (Some 3) (repeat None (inv_size P))).
Proof. vm_compute. repeat split. Qed.
Definition x503_sim : sim x503_ops OF.
Proof.
  pose (S := word_sim P HW Hp).
  refine (mkSim x503_ops OF rep2 srep2 (elem_ok P) (s_rel _ _ S) (s_le _ _ S) (s_zero _ _ S) (s_one _ _ S) (s_unit _ _ S)
    _ _ _ _ _ _ _ mul3_x5 _ (s_neg _ _ S) _ (s_div2 _ _ S) _ _ _ _ _ _).
  - intros j k a b x y Ha Hb. pose proof (s_add _ _ S j k a b x y Ha Hb) as H. destruct Ha as [A0 A1], Hb as [B0 B1].
    cbn [o_add x503_ops] in *. unfold comp2. rewrite (fpadd_x_eq5 _ _ (proj1 A0) (proj1 B0)), (fpadd_x_eq5 _ _ (proj1 A1) (proj1 B1)). exact H.
  - intros a b x y Ha Hb. pose proof (s_adds _ _ S a b x y Ha Hb) as H. destruct Ha as [A0 A1], Hb as [B0 B1].
    cbn [o_add x503_ops] in *. unfold comp2. rewrite (fpadd_x_eq5 _ _ (proj1 A0) (proj1 B0)), (fpadd_x_eq5 _ _ (proj1 A1) (proj1 B1)). exact H.
  - intros j k a b x y Ha Hb. pose proof (s_sub _ _ S j k a b x y Ha Hb) as H. destruct Ha as [A0 A1], Hb as [B0 B1].
    cbn [o_sub x503_ops] in *. unfold comp2. rewrite (fpsub_x_eq5 _ _ (proj1 A0) (proj1 B0)), (fpsub_x_eq5 _ _ (proj1 A1) (proj1 B1)). exact H.
  - intros a b x y Ha Hb. pose proof (s_subs _ _ S a b x y Ha Hb) as H. destruct Ha as [A0 A1], Hb as [B0 B1].
    cbn [o_sub x503_ops] in *. unfold comp2. rewrite (fpsub_x_eq5 _ _ (proj1 A0) (proj1 B0)), (fpsub_x_eq5 _ _ (proj1 A1) (proj1 B1)). exact H.
  - intros j k a b x y Ha Hb. pose proof (s_madd _ _ S j k a b x y Ha Hb) as H. destruct Ha as [A0 A1], Hb as [B0 B1].
    cbn [o_madd x503_ops] in *. unfold comp2. rewrite (mp_add_x_eq5 _ _ (proj1 A0) (proj1 B0)), (mp_add_x_eq5 _ _ (proj1 A1) (proj1 B1)). exact H.
  - intros j k a b x y Ha Hb. pose proof (s_msub _ _ S j k a b x y Ha Hb) as H. destruct Ha as [A0 A1], Hb as [B0 B1].
    cbn [o_msub x503_ops] in *. unfold comp2. rewrite (mp_sub_x_eq5 _ _ (proj1 A0) (proj1 B0)), (mp_sub_x_eq5 _ _ (proj1 A1) (proj1 B1)). exact H.
  - intros j k a b x y Ha Hb H. repeat match goal with H : _ && _ = true |- _ => apply andb_prop in H as [? ?] end.
    repeat match goal with H : (_ <=? _) = true |- _ => apply Z.leb_le in H end.
    apply (mul2_x5 j k); auto; lia.
  - intros j a x Ha H. pose proof (s_sqr _ _ S j a x Ha H) as H1. cbn [o_sqr x503_ops].
    apply andb_prop in H as [_ H]. pose proof (s_le _ _ S j 4 a x H Ha) as H4. rewrite (sqr_x5 a x H4). exact H1.
  - exact (inv_f P HW Hp _ _ _ ok_mul5 fpadd_x_eq5 fpsub_x_eq5 table_ok5).
  - intros a x H. pose proof (s_add1 _ _ S a x H) as H1. cbn [o_add1 x503_ops]. destruct H as [A0 _].
    rewrite (fpadd_x_eq5 _ _ (proj1 A0) (wf_one P HW)). exact H1.
  - exact (sqrt_f P HW Hp _ _ _ ok_mul5 fpadd_x_eq5 fpsub_x_eq5 table_ok5).
  - exact (eq_f P HW Hp _ fpsub_x_eq5).
  - exact (lt_f P HW Hp _ ok_unit_x5).
  - exact (enc_f P HW Hp _ ok_unit_x5).
  - exact (dec_f P HW Hp _ _ _ ok_mul5 fpadd_x_eq5 fpsub_x_eq5 ok_unit_x5 ok_R25).
Defined.
Lemma x503_rand : rand_ok P -> rand_sim x503_sim.
Proof. intros H. exact (word_rand P HW Hp H). Qed.
End Sim.
