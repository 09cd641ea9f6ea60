(** fp2sqr503_c0_asm and fp2sqr503_c1_asm give the words of the generic functions. *)
From Verif Require Import Base BaseP Params Wf Digits DigitsP Fp FpP Asm AsmP503 AsmP AsmRedP AsmRed2 AsmMul434 AsmAdd434 AsmSqr434
  AsmMul503 AsmAdd503 AsmFp503.

Local Notation P := (P503 T64).

(** ** fp2sqr503_c0_asm, lines 1447-1551 *)
Definition sqr0_a : list instr := firstn 27 fp2sqr503_c0_asm.
Definition sqr0_b : list instr := firstn 27 (skipn 27 fp2sqr503_c0_asm).
Definition sqr0_c : list instr := firstn 26 (skipn 54 fp2sqr503_c0_asm).
Definition sqr0_z : list instr := skipn (length fp2sqr503_c0_asm - 14) fp2sqr503_c0_asm.
Lemma sqr0_split : fp2sqr503_c0_asm = sqr0_a ++ sqr0_b ++ sqr0_c ++
  FPMUL512x512 (mB RSI 0) (mB RSI 64) R8 R9 R10 R11 R12 R13 R14 R15 RBP RBX RCX ++ sqr0_z.
Proof. reflexivity. Qed.
Lemma sqr0_a1_ok s : let a0 := wat (mem s) (rg s RDI) 0 8 in let a1 := wat (mem s) (rg s RDI) 64 8 in
  let s1 := run (firstn 20 sqr0_a) s in
  (rg s1 RDI = rg s RDI /\ rg s1 RSI = rg s RSI /\ rg s1 RBX = rg s RBX /\ rg s1 RBP = rg s RBP) /\
  stk s1 = rg s R15 :: rg s R14 :: rg s R13 :: rg s R12 :: stk s /\
  map (rg s1) [R8; R9; R10; R11; R12; R13; R14; R15] = adds 0 a0 a1 /\ mem s1 = mem s.
Proof. repeat split; reflexivity. Qed.
Lemma sqr0_a2_ok s : let s1 := run (skipn 20 sqr0_a) s in rg s1 = rg s /\ stk s1 = stk s /\
  (forall y, mem s1 y = put (rg s RSI) 8 (tl (map (rg s) [R8; R9; R10; R11; R12; R13; R14; R15])) (mem s) y).
Proof. repeat split; reflexivity. Qed.
Lemma sqr0_a_ok s : let a0 := wat (mem s) (rg s RDI) 0 8 in let a1 := wat (mem s) (rg s RDI) 64 8 in
  let s1 := run sqr0_a s in
  (rg s1 RDI = rg s RDI /\ rg s1 RSI = rg s RSI /\ rg s1 RBX = rg s RBX /\ rg s1 RBP = rg s RBP) /\
  stk s1 = rg s R15 :: rg s R14 :: rg s R13 :: rg s R12 :: stk s /\
  map (rg s1) [R8; R9; R10; R11; R12; R13; R14; R15] = adds 0 a0 a1 /\
  (forall y, mem s1 y = put (rg s RSI) 8 (tl (map (rg s1) [R8; R9; R10; R11; R12; R13; R14; R15])) (mem s) y).
Proof.
  intros a0 a1. cbv zeta. rewrite <- (firstn_skipn 20 sqr0_a), run_app.
  pose proof (sqr0_a1_ok s) as H. cbv zeta in H. fold a0 a1 in H. generalize dependent (run (firstn 20 sqr0_a) s).
  intros s1 (R & K & T & M). pose proof (sqr0_a2_ok s1) as H. cbv zeta in H. generalize dependent (run (skipn 20 sqr0_a) s1).
  intros s2 (-> & K2 & M2). split; auto. split; [congruence|]. split; auto. intros y.
  destruct R as (_ & R & _). now rewrite M2, R, M.
Qed.
Lemma sqr0_b_ok s : let a0 := wat (mem s) (rg s RDI) 0 8 in let a1 := wat (mem s) (rg s RDI) 64 8 in
  let s1 := run sqr0_b s in
  (rg s1 RDI = rg s RDI /\ rg s1 RSI = rg s RSI /\ rg s1 R8 = rg s R8) /\
  stk s1 = rg s RBP :: rg s RBX :: stk s /\ mem s1 = mem s /\
  map (rg s1) [RCX; R10; R12; R13; R14; R15; RBX; RBP] = adds 0 (subs 0 a0 a1) (w_px4 P).
Proof. repeat split; reflexivity. Qed.
Lemma sqr0_c_ok s : let b := map (rg s) [RCX; R10; R12; R13; R14; R15; RBX; RBP] in
  let s1 := run sqr0_c s in
  (rg s1 RDI = rg s RDI /\ rg s1 RSI = rg s RSI) /\
  stk s1 = stk s /\ (forall y, mem s1 y = put (rg s RSI) 64 b (mem s) y) /\
  map (rg s1) (zregs RBP) = mul_row (rg s R8) b.
Proof.
  intros b s1. do 3 (split; [repeat split; reflexivity|]).
  unfold s1, sqr0_c, fp2sqr503_c0_asm. cbn [firstn skipn app]. sim_cbn. rewrite !Z.lxor_nilpotent, !Z.eqb_refl. reflexivity.
Qed.
Lemma sqr0_z_ok s : let s' := run sqr0_z s in
  (forall y, mem s' y = put (rg s RSI) 0 (map (rg s) [RBP; R8; R9; R10; R11; R12; R13; R14]) (mem s) y) /\
  (forall v0 v1 v2 v3 v4 v5 r, stk s = v0 :: v1 :: v2 :: v3 :: v4 :: v5 :: r ->
    stk s' = r /\ map (rg s') [RBP; RBX; R15; R14; R13; R12] = [v0; v1; v2; v3; v4; v5]).
Proof. split; [reflexivity|]. intros v0 v1 v2 v3 v4 v5 r H. cbn. rewrite H. split; reflexivity. Qed.

Definition off16 (x y : Z) : Prop := x + 128 <= y \/ y + 128 <= x.
Lemma sqr0_pro s : let a0 := wat (mem s) (rg s RDI) 0 8 in let a1 := wat (mem s) (rg s RDI) 64 8 in
  let t1 := adds 0 a0 a1 in let t2 := adds 0 (subs 0 a0 a1) (w_px4 P) in
  off16 (rg s RSI) (rg s RDI) ->
  let s1 := run (sqr0_a ++ sqr0_b ++ sqr0_c) s in
  rg s1 RSI = rg s RSI /\
  stk s1 = rg s RBP :: rg s RBX :: rg s R15 :: rg s R14 :: rg s R13 :: rg s R12 :: stk s /\
  (forall y, mem s1 y = put (rg s RSI) 64 t2 (put (rg s RSI) 8 (tl t1) (mem s)) y) /\
  map (rg s1) (zregs RBP) = mul_row (nth 0 t1 0) t2.
Proof.
  intros a0 a1 t1 t2 Off. cbv zeta. rewrite !run_app.
  pose proof (sqr0_a_ok s) as H. cbv zeta in H. generalize dependent (run sqr0_a s).
  intros s1 ((DI & SI & EB & EP) & K & T1 & M). fold a0 a1 t1 in T1. rewrite T1 in M.
  assert (A0 : wat (mem s1) (rg s1 RDI) 0 8 = a0).
  { rewrite DI. unfold a0. rewrite <- (put_wat_other (rg s RSI) 8 (tl t1) (mem s)).
    - apply wat_ext. intros y _. apply M. - change (length (tl t1)) with 7%nat. unfold off16 in Off. lia. }
  assert (A1 : wat (mem s1) (rg s1 RDI) 64 8 = a1).
  { rewrite DI. unfold a1. rewrite <- (put_wat_other (rg s RSI) 8 (tl t1) (mem s)).
    - apply wat_ext. intros y _. apply M. - change (length (tl t1)) with 7%nat. unfold off16 in Off. lia. }
  pose proof (sqr0_b_ok s1) as H. cbv zeta in H. rewrite A0, A1 in H. fold t2 in H. generalize dependent (run sqr0_b s1).
  intros s2 ((DI2 & SI2 & E8) & K2 & M2 & T2).
  pose proof (sqr0_c_ok s2) as H. cbv zeta in H. rewrite T2 in H. generalize dependent (run sqr0_c s2).
  intros s3 ((DI3 & SI3) & K3 & M3 & Z3).
  assert (R8E : rg s2 R8 = nth 0 t1 0). { rewrite E8, <- T1. reflexivity. }
  rewrite R8E in Z3. split; [congruence|]. split; [|split; [|exact Z3]].
  - rewrite K3, K2, K. congruence.
  - intros y. rewrite M3, M2, SI2, SI. now apply put_ext.
Qed.

Lemma sqr0_run s : run fp2sqr503_c0_asm s = run sqr0_z
  (run (FPMUL512x512 (mB RSI 0) (mB RSI 64) R8 R9 R10 R11 R12 R13 R14 R15 RBP RBX RCX) (run (sqr0_a ++ sqr0_b ++ sqr0_c) s)).
Proof. rewrite sqr0_split, !run_app. reflexivity. Qed.
Lemma fp2sqr503_c0_ok s : let a0 := wat (mem s) (rg s RDI) 0 8 in let a1 := wat (mem s) (rg s RDI) 64 8 in
  let t1 := mp_addfast P a0 a1 in let t2 := mp_sub_p4 P a0 a1 in
  Forall word a0 -> Forall word a1 -> off16 (rg s RSI) (rg s RDI) ->
  valB W t2 + p503 <= W ^ 8 -> valB W t1 * valB W t2 < W ^ 8 * p503 ->
  let s' := run fp2sqr503_c0_asm s in
  saved s s' /\ only_at (rg s RSI) 16 (mem s) (mem s') /\ wat (mem s') (rg s RSI) 0 8 = fpmul_mont P t1 t2.
Proof.
  intros a0 a1 t1 t2 W0 W1 Off H2 HB. assert (B0 : bit 0) by (split; lia).
  assert (E1 : t1 = adds 0 a0 a1) by (now apply mp_add_adds8).
  assert (E2 : t2 = adds 0 (subs 0 a0 a1) (w_px4 P)).
  { unfold t2, mp_sub_p4. change (radix P) with 64. rewrite subc_loop_subs by auto.
    rewrite addc_loop_adds; auto using subs_words, p503x4_words. }
  cbv zeta. clearbody t1 t2. rewrite sqr0_run.
  pose proof (sqr0_pro s Off) as H. cbv zeta in H. fold a0 a1 in H. rewrite <- E1, <- E2 in H.
  assert (Wt1 : Forall word t1) by (rewrite E1; apply adds_words).
  assert (Wt2 : Forall word t2) by (rewrite E2; apply adds_words).
  assert (L1 : length t1 = 8%nat) by (rewrite E1; reflexivity). assert (L2 : length t2 = 8%nat) by (rewrite E2; reflexivity).
  clear E1 E2.
  generalize dependent (run (sqr0_a ++ sqr0_b ++ sqr0_c) s). intros s1 (SI & K & M & Z).
  assert (Ht1 : t1 = nth 0 t1 0 :: tl t1) by (destruct t1; [discriminate|reflexivity]).
  assert (Wd : word (nth 0 t1 0)) by (rewrite Ht1 in Wt1; now inversion Wt1).
  destruct (mul_row_ok (nth 0 t1 0) t2 Wd ltac:(intros X; rewrite X in L2; discriminate) Wt2) as [WR VR].
  destruct (words_map _ _ _ Z WR) as [Wz Vz]. rewrite VR in Vz.
  assert (Lt : length (tl t1) = 7%nat) by (rewrite Ht1 in L1; cbn in L1; cbn; lia).
  assert (M1 : tl (wat (mem s1) (rg s RSI) 0 8) = tl t1).
  { rewrite wat_S. cbn [tl]. change (0 + 8) with 8.
    transitivity (wat (put (rg s RSI) 8 (tl t1) (mem s)) (rg s RSI) 8 7).
    - rewrite <- (put_wat_other (rg s RSI) 64 t2 (put (rg s RSI) 8 (tl t1) (mem s))) by (rewrite L2; lia).
      apply wat_ext. intros y _. apply M.
    - rewrite <- Lt. apply put_wat. }
  assert (M2 : wat (mem s1) (rg s RSI) 64 8 = t2).
  { transitivity (wat (put (rg s RSI) 64 t2 (put (rg s RSI) 8 (tl t1) (mem s))) (rg s RSI) 64 8).
    - apply wat_ext. intros y _. apply M.
    - rewrite <- L2. apply put_wat. }
  destruct (FPMUL_ok8 RBP RBX RCX (mB RSI 0) (mB RSI 64) (nth 0 t1 0) (tl t1) t2 s1) as (F & Q); auto.
  - rewrite <- M1 at 1. apply mops_tl; [notin|exact SI|reflexivity].
  - rewrite <- M2 at 1. apply mops_wat; [notin|exact SI|reflexivity].
  - now rewrite <- Ht1.
  - rewrite <- Ht1 in Q.
    generalize dependent (run (FPMUL512x512 (mB RSI 0) (mB RSI 64) R8 R9 R10 R11 R12 R13 R14 R15 RBP RBX RCX) s1).
    intros s2 (Mm2 & K2 & _ & R2) Q. rewrite K in K2.
    assert (SI2 : rg s2 RSI = rg s RSI) by (rewrite R2; [exact SI|notin]).
    assert (QE : map (rg s2) [RBP; R8; R9; R10; R11; R12; R13; R14] = fpmul_mont P t1 t2).
    { apply mul_post_eq8'; auto. }
    pose proof (sqr0_z_ok s2) as H. cbv zeta in H. generalize dependent (run sqr0_z s2). intros s' (M' & R').
    destruct (R' _ _ _ _ _ _ _ K2) as [K' RG]. rewrite QE, SI2 in M'. injection RG as Q1 Q2 Q3 Q4 Q5 Q6.
    assert (LQ : length (fpmul_mont P t1 t2) = 8%nat) by (rewrite <- QE; reflexivity).
    split; [|split].
    + split; auto. intros r Hr. cbn in Hr. destruct Hr as [<-|[<-|[<-|[<-|[<-|[<-|[]]]]]]]; congruence.
    + intros y Hy. rewrite M', put_only.
      * rewrite Mm2, M, put_only, put_only; auto.
        -- intros i Hi. rewrite Lt in Hi. specialize (Hy (1 + i)%nat). lia.
        -- intros i Hi. rewrite L2 in Hi. specialize (Hy (8 + i)%nat). lia.
      * intros i Hi. rewrite LQ in Hi. specialize (Hy i). lia.
    + transitivity (wat (put (rg s RSI) 0 (fpmul_mont P t1 t2) (mem s2)) (rg s RSI) 0 8).
      * apply wat_ext. intros y _. apply M'.
      * rewrite <- LQ. apply put_wat.
Qed.

(** ** fp2sqr503_c1_asm, lines 1561-1635: the words of 2 a0 are kept on the stack *)
Definition sqr1_a : list instr := firstn 22 fp2sqr503_c1_asm.
Definition sqr1_b : list instr := firstn 26 (skipn 22 fp2sqr503_c1_asm).
Definition sqr1_z : list instr := skipn (length fp2sqr503_c1_asm - 15) fp2sqr503_c1_asm.
Lemma sqr1_run s : run fp2sqr503_c1_asm s = run sqr1_z
  (run (FPMUL512x512 (mS 0) (mB RDI 64) R8 R9 R10 R11 R12 R13 R14 R15 RBP RBX RCX) (run sqr1_b (run sqr1_a s))).
Proof.
  assert (E : fp2sqr503_c1_asm = sqr1_a ++ sqr1_b ++
    FPMUL512x512 (mS 0) (mB RDI 64) R8 R9 R10 R11 R12 R13 R14 R15 RBP RBX RCX ++ sqr1_z) by reflexivity.
  rewrite E at 1. rewrite !run_app. reflexivity.
Qed.
Lemma sqr1_a_ok s : let a0 := wat (mem s) (rg s RDI) 0 8 in let s1 := run sqr1_a s in
  (rg s1 RDI = rg s RDI /\ rg s1 RSI = rg s RSI) /\ mem s1 = mem s /\
  stk s1 = rg s RBP :: rg s RBX :: rg s R15 :: rg s R14 :: rg s R13 :: rg s R12 :: stk s /\
  map (rg s1) [R8; R9; R10; R11; R12; R13; R14; R15] = adds 0 a0 a0.
Proof. repeat split; reflexivity. Qed.
Lemma sqr1_b_ok s : let s1 := run sqr1_b s in
  (rg s1 RDI = rg s RDI /\ rg s1 RSI = rg s RSI) /\ mem s1 = mem s /\
  (exists x, stk s1 = (x :: map (rg s) [R9; R10; R11; R12; R13; R14; R15]) ++ stk s) /\
  map (rg s1) (zregs RBP) = mul_row (rg s R8) (wat (mem s) (rg s RDI) 64 8).
Proof.
  split; [repeat split; reflexivity|]. split; [reflexivity|]. split; [eexists; reflexivity|].
  unfold sqr1_b, fp2sqr503_c1_asm. cbn [firstn skipn app]. sim_cbn. rewrite !Z.lxor_nilpotent. reflexivity.
Qed.
Lemma sqr1_z_ok s : let s' := run sqr1_z s in
  (forall y, mem s' y = put (rg s RSI) 0 (map (rg s) [RBP; R8; R9; R10; R11; R12; R13; R14]) (mem s) y) /\
  (forall l v0 v1 v2 v3 v4 v5 r, length l = 8%nat -> stk s = l ++ v0 :: v1 :: v2 :: v3 :: v4 :: v5 :: r ->
    stk s' = r /\ map (rg s') [RBP; RBX; R15; R14; R13; R12] = [v0; v1; v2; v3; v4; v5]).
Proof.
  split; [reflexivity|]. intros l v0 v1 v2 v3 v4 v5 r L H.
  do 9 (destruct l as [|? l]; [try discriminate|]); [|discriminate]. cbn. rewrite H. split; reflexivity.
Qed.
Lemma stack_ops8 C s x l r : length l = 7%nat -> stk s = (x :: l) ++ r -> mops C s (mS 0) 1 l.
Proof.
  intros L K. do 8 (destruct l as [|? l]; [try discriminate|]); [|discriminate].
  cbn [mops]. repeat split; intros s' (_ & K' & _); cbn [rd mS]; rewrite K', K; reflexivity.
Qed.

Lemma fp2sqr503_c1_ok s : let a0 := wat (mem s) (rg s RDI) 0 8 in let a1 := wat (mem s) (rg s RDI) 64 8 in
  let t := mp_addfast P a0 a0 in
  Forall word a0 -> Forall word a1 ->
  valB W a1 + p503 <= W ^ 8 -> valB W t * valB W a1 < W ^ 8 * p503 ->
  let s' := run fp2sqr503_c1_asm s in
  saved s s' /\ only_at (rg s RSI) 8 (mem s) (mem s') /\ wat (mem s') (rg s RSI) 0 8 = fpmul_mont P t a1.
Proof.
  intros a0 a1 t W0 W1 H2 HB.
  assert (E1 : t = adds 0 a0 a0) by (now apply mp_add_adds8). cbv zeta. clearbody t. rewrite sqr1_run.
  pose proof (sqr1_a_ok s) as H. cbv zeta in H. fold a0 in H. rewrite <- E1 in H.
  assert (Wt : Forall word t) by (rewrite E1; apply adds_words).
  assert (L1 : length t = 8%nat) by (rewrite E1; reflexivity). clear E1.
  generalize dependent (run sqr1_a s). intros s1 ((DI & SI) & M & K & T).
  pose proof (sqr1_b_ok s1) as H. cbv zeta in H. rewrite DI, M in H. fold a1 in H.
  assert (Ht : t = nth 0 t 0 :: tl t) by (destruct t; [discriminate|reflexivity]).
  assert (T8 : rg s1 R8 = nth 0 t 0) by (rewrite <- T; reflexivity).
  assert (Tt : map (rg s1) [R9; R10; R11; R12; R13; R14; R15] = tl t) by (rewrite <- T; reflexivity).
  rewrite T8, Tt, K in H.
  generalize dependent (run sqr1_b s1). intros s2 ((DI2 & SI2) & M2 & (x & K2) & Z).
  assert (Wd : word (nth 0 t 0)) by (rewrite Ht in Wt; now inversion Wt).
  assert (La : length a1 = 8%nat) by apply wat_length.
  assert (Lt : length (tl t) = 7%nat) by (rewrite Ht in L1; cbn in L1; cbn; lia).
  destruct (mul_row_ok (nth 0 t 0) a1 Wd ltac:(discriminate) W1) as [WR VR].
  destruct (words_map _ _ _ Z WR) as [Wz Vz]. rewrite VR in Vz.
  destruct (FPMUL_ok8 RBP RBX RCX (mS 0) (mB RDI 64) (nth 0 t 0) (tl t) a1 s2) as (F & Q); auto.
  - eapply stack_ops8; eauto.
  - apply mops_wat; [notin|exact DI2|now rewrite M2].
  - now rewrite <- Ht.
  - rewrite <- Ht in Q.
    generalize dependent (run (FPMUL512x512 (mS 0) (mB RDI 64) R8 R9 R10 R11 R12 R13 R14 R15 RBP RBX RCX) s2).
    intros s3 (M3 & K3 & _ & R3) Q. rewrite K2 in K3. rewrite M2 in M3.
    assert (SI3 : rg s3 RSI = rg s RSI) by (rewrite R3; [congruence|notin]).
    assert (QE : map (rg s3) [RBP; R8; R9; R10; R11; R12; R13; R14] = fpmul_mont P t a1) by (apply mul_post_eq8'; auto).
    pose proof (sqr1_z_ok s3) as H. cbv zeta in H. generalize dependent (run sqr1_z s3). intros s' (M' & R').
    destruct (R' (x :: tl t) _ _ _ _ _ _ _ ltac:(cbn [length]; now rewrite Lt) K3) as [K' RG].
    rewrite QE, SI3 in M'. injection RG as Q1 Q2 Q3 Q4 Q5 Q6.
    assert (LQ : length (fpmul_mont P t a1) = 8%nat) by (rewrite <- QE; reflexivity).
    split; [|split].
    + split; auto. intros r Hr. cbn in Hr. destruct Hr as [<-|[<-|[<-|[<-|[<-|[<-|[]]]]]]]; congruence.
    + intros y Hy. rewrite M', put_only.
      * congruence.
      * intros i Hi. rewrite LQ in Hi. specialize (Hy i). lia.
    + transitivity (wat (put (rg s RSI) 0 (fpmul_mont P t a1) (mem s3)) (rg s RSI) 0 8).
      * apply wat_ext. intros y _. apply M'.
      * rewrite <- LQ. apply put_wat.
Qed.
