(** fp2sqr434_c0_asm and fp2sqr434_c1_asm give the words of the generic functions. *)
From Verif Require Import Base BaseP Params Wf Digits DigitsP Fp FpP Asm AsmP434 AsmP AsmRedP AsmMul434 AsmAdd434 AsmFp434.

Local Notation P := (P434 T64).

(** Words stored one after the other at x + d. *)
Fixpoint put (x d : Z) (l : list Z) (m : Z -> Z) : Z -> Z :=
  match l with [] => m | v :: r => put x (d + 8) r (fun y => if y =? x + d then v else m y) end.
Lemma put_out x l : forall d m y, y < x + d \/ x + d + 8 * Z.of_nat (length l) <= y -> put x d l m y = m y.
Proof.
  induction l as [|v l IH]; intros d m y H; cbn [put]; auto. cbn [length] in H. rewrite IH by lia.
  destruct (Z.eqb_spec y (x + d)); [lia|auto].
Qed.
Lemma put_only x d l m y : (forall i, (i < length l)%nat -> y <> x + (d + 8 * Z.of_nat i)) -> put x d l m y = m y.
Proof.
  revert d m. induction l as [|v l IH]; intros d m H; cbn [put]; auto. rewrite IH.
  - destruct (Z.eqb_spec y (x + d)); auto. exfalso. apply (H 0%nat); cbn [length]; lia.
  - intros i Hi. specialize (H (S i)). cbn [length] in H. lia.
Qed.
Lemma wat_S m x d n : wat m x d (S n) = m (x + (d + 0)) :: wat m x (d + 8) n.
Proof.
  unfold wat. cbn [seq map]. f_equal. rewrite <- seq_shift, map_map. apply map_ext. intros i. f_equal. lia.
Qed.
Lemma wat_ext m m' x d n : (forall y, x + d <= y < x + d + 8 * Z.of_nat n -> m y = m' y) -> wat m x d n = wat m' x d n.
Proof. intros H. unfold wat. apply map_ext_in. intros i Hi. apply in_seq in Hi. apply H. lia. Qed.
Lemma put_wat x l : forall d m, wat (put x d l m) x d (length l) = l.
Proof.
  induction l as [|v l IH]; intros d m; cbn [put length]; [reflexivity|]. rewrite wat_S, IH. f_equal.
  rewrite put_out by lia. rewrite Z.add_0_r, Z.eqb_refl. reflexivity.
Qed.
Lemma put_wat_other x d l m x' d' n : x' + d' + 8 * Z.of_nat n <= x + d \/ x + d + 8 * Z.of_nat (length l) <= x' + d' ->
  wat (put x d l m) x' d' n = wat m x' d' n.
Proof. intros H. apply wat_ext. intros y Hy. apply put_out. lia. Qed.

(** ** fp2sqr434_c0_asm, lines 596-689 *)
Definition sqr0_a : list instr := firstn 24 fp2sqr434_c0_asm.
Definition sqr0_b : list instr := firstn 23 (skipn 24 fp2sqr434_c0_asm).
Definition sqr0_c : list instr := firstn 24 (skipn 47 fp2sqr434_c0_asm).
Definition sqr0_z : list instr := skipn (length fp2sqr434_c0_asm - 12) fp2sqr434_c0_asm.
Lemma sqr0_split : fp2sqr434_c0_asm = sqr0_a ++ sqr0_b ++ sqr0_c ++
  FPMUL448x448 (mB RSI 0) (mB RSI 56) R8 R9 R10 R11 R12 R13 R14 R15 RBX RCX ++ sqr0_z.
Proof. reflexivity. Qed.
Lemma sqr0_a1_ok s : let a0 := wat (mem s) (rg s RDI) 0 7 in let a1 := wat (mem s) (rg s RDI) 56 7 in
  let s1 := run (firstn 17 sqr0_a) s in
  (rg s1 RDI = rg s RDI /\ rg s1 RSI = rg s RSI /\ rg s1 R15 = rg s R15 /\ rg s1 RBX = rg s RBX /\ rg s1 RBP = rg s RBP) /\
  stk s1 = rg s R14 :: rg s R13 :: rg s R12 :: stk s /\
  map (rg s1) [R8; R9; R10; R11; R12; R13; R14] = adds 0 a0 a1 /\ mem s1 = mem s.
Proof. repeat split; reflexivity. Qed.
Lemma sqr0_a2_ok s : let s1 := run (skipn 17 sqr0_a) s in rg s1 = rg s /\ stk s1 = stk s /\
  (forall y, mem s1 y = put (rg s RSI) 0 (map (rg s) [R8; R9; R10; R11; R12; R13; R14]) (mem s) y).
Proof. repeat split; reflexivity. Qed.
Lemma sqr0_a_ok s : let a0 := wat (mem s) (rg s RDI) 0 7 in let a1 := wat (mem s) (rg s RDI) 56 7 in
  let s1 := run sqr0_a s in
  (rg s1 RDI = rg s RDI /\ rg s1 RSI = rg s RSI /\ rg s1 R15 = rg s R15 /\ rg s1 RBX = rg s RBX /\ rg s1 RBP = rg s RBP) /\
  stk s1 = rg s R14 :: rg s R13 :: rg s R12 :: stk s /\
  map (rg s1) [R8; R9; R10; R11; R12; R13; R14] = adds 0 a0 a1 /\
  (forall y, mem s1 y = put (rg s RSI) 0 (map (rg s1) [R8; R9; R10; R11; R12; R13; R14]) (mem s) y).
Proof.
  intros a0 a1. cbv zeta. rewrite <- (firstn_skipn 17 sqr0_a), run_app.
  pose proof (sqr0_a1_ok s) as H. cbv zeta in H. fold a0 a1 in H. generalize dependent (run (firstn 17 sqr0_a) s).
  intros s1 (R & K & T & M). pose proof (sqr0_a2_ok s1) as H. cbv zeta in H. generalize dependent (run (skipn 17 sqr0_a) s1).
  intros s2 (-> & K2 & M2). split; auto. split; [congruence|]. split; auto. intros y.
  destruct R as (_ & R & _). now rewrite M2, R, M.
Qed.
Lemma sqr0_b_ok s : let a0 := wat (mem s) (rg s RDI) 0 7 in let a1 := wat (mem s) (rg s RDI) 56 7 in
  let s1 := run sqr0_b s in
  (rg s1 RDI = rg s RDI /\ rg s1 RSI = rg s RSI /\ rg s1 RBX = rg s RBX /\ rg s1 RBP = rg s RBP /\ rg s1 R8 = rg s R8) /\
  stk s1 = rg s R15 :: stk s /\ mem s1 = mem s /\
  map (rg s1) [RAX; R10; R12; R13; R14; R15; RCX] = adds 0 (subs 0 a0 a1) (w_px4 P).
Proof. repeat split; reflexivity. Qed.
Lemma sqr0_c_ok s : let b := map (rg s) [RAX; R10; R12; R13; R14; R15; RCX] in
  let s1 := run sqr0_c s in
  (rg s1 RDI = rg s RDI /\ rg s1 RSI = rg s RSI /\ rg s1 RBP = rg s RBP) /\
  stk s1 = rg s RBX :: stk s /\ (forall y, mem s1 y = put (rg s RSI) 56 b (mem s) y) /\
  map (rg s1) zreg = mul_row (rg s R8) b.
Proof.
  intros b s1. do 3 (split; [repeat split; reflexivity|]).
  unfold s1, sqr0_c, fp2sqr434_c0_asm. cbn [firstn skipn app]. sim_cbn. rewrite !Z.lxor_nilpotent. reflexivity.
Qed.
Lemma sqr0_z_ok s : let s' := run sqr0_z s in
  (forall y, mem s' y = put (rg s RSI) 0 (map (rg s) [R15; R8; R9; R10; R11; R12; R13]) (mem s) y) /\
  rg s' RBP = rg s RBP /\
  (forall v0 v1 v2 v3 v4 r, stk s = v0 :: v1 :: v2 :: v3 :: v4 :: r ->
    stk s' = r /\ map (rg s') [RBX; R15; R14; R13; R12] = [v0; v1; v2; v3; v4]).
Proof. split; [reflexivity|]. split; [reflexivity|]. intros v0 v1 v2 v3 v4 r H. cbn. rewrite H. split; reflexivity. Qed.

Lemma put_ext x l : forall d m m', (forall y, m y = m' y) -> forall y, put x d l m y = put x d l m' y.
Proof. induction l as [|v l IH]; intros d m m' H y; cbn [put]; auto. apply IH. intros z. destruct (z =? _); auto. Qed.
Definition off14 (x y : Z) : Prop := x + 112 <= y \/ y + 112 <= x.
Lemma sqr0_pro s : let a0 := wat (mem s) (rg s RDI) 0 7 in let a1 := wat (mem s) (rg s RDI) 56 7 in
  let t1 := adds 0 a0 a1 in let t2 := adds 0 (subs 0 a0 a1) (w_px4 P) in
  off14 (rg s RSI) (rg s RDI) ->
  let s1 := run (sqr0_a ++ sqr0_b ++ sqr0_c) s in
  rg s1 RSI = rg s RSI /\ rg s1 RBP = rg s RBP /\
  stk s1 = rg s RBX :: rg s R15 :: rg s R14 :: rg s R13 :: rg s R12 :: stk s /\
  (forall y, mem s1 y = put (rg s RSI) 56 t2 (put (rg s RSI) 0 t1 (mem s)) y) /\
  map (rg s1) zreg = mul_row (nth 0 t1 0) t2.
Proof.
  intros a0 a1 t1 t2 Off. cbv zeta. rewrite !run_app.
  pose proof (sqr0_a_ok s) as H. cbv zeta in H. generalize dependent (run sqr0_a s).
  intros s1 ((DI & SI & E15 & EB & EP) & K & T1 & M). fold a0 a1 t1 in T1. rewrite T1 in M.
  assert (A0 : wat (mem s1) (rg s1 RDI) 0 7 = a0).
  { rewrite DI. unfold a0. rewrite <- (put_wat_other (rg s RSI) 0 t1 (mem s)).
    - apply wat_ext. intros y _. apply M. - change (length t1) with 7%nat. unfold off14 in Off. lia. }
  assert (A1 : wat (mem s1) (rg s1 RDI) 56 7 = a1).
  { rewrite DI. unfold a1. rewrite <- (put_wat_other (rg s RSI) 0 t1 (mem s)).
    - apply wat_ext. intros y _. apply M. - change (length t1) with 7%nat. unfold off14 in Off. lia. }
  pose proof (sqr0_b_ok s1) as H. cbv zeta in H. rewrite A0, A1 in H. fold t2 in H. generalize dependent (run sqr0_b s1).
  intros s2 ((DI2 & SI2 & EB2 & EP2 & E8) & K2 & M2 & T2).
  pose proof (sqr0_c_ok s2) as H. cbv zeta in H. rewrite T2 in H. generalize dependent (run sqr0_c s2).
  intros s3 ((DI3 & SI3 & EP3) & K3 & M3 & Z3).
  assert (R8E : rg s2 R8 = nth 0 t1 0). { rewrite E8, <- T1. reflexivity. }
  rewrite R8E in Z3. split; [congruence|]. split; [congruence|]. split; [|split; [|exact Z3]].
  - rewrite K3, K2, K. congruence.
  - intros y. rewrite M3, M2, SI2, SI. now apply put_ext.
Qed.

Lemma sqr0_run s : run fp2sqr434_c0_asm s = run sqr0_z
  (run (FPMUL448x448 (mB RSI 0) (mB RSI 56) R8 R9 R10 R11 R12 R13 R14 R15 RBX RCX) (run (sqr0_a ++ sqr0_b ++ sqr0_c) s)).
Proof. rewrite sqr0_split, !run_app. reflexivity. Qed.
Lemma fp2sqr434_c0_ok s : let a0 := wat (mem s) (rg s RDI) 0 7 in let a1 := wat (mem s) (rg s RDI) 56 7 in
  let t1 := mp_addfast P a0 a1 in let t2 := mp_sub_p4 P a0 a1 in
  Forall word a0 -> Forall word a1 -> off14 (rg s RSI) (rg s RDI) ->
  valB W t2 + p434 <= W ^ 7 -> valB W t1 * valB W t2 < W ^ 7 * p434 ->
  let s' := run fp2sqr434_c0_asm s in
  saved s s' /\ only_at (rg s RSI) 14 (mem s) (mem s') /\ wat (mem s') (rg s RSI) 0 7 = fpmul_mont P t1 t2.
Proof.
  intros a0 a1 t1 t2 W0 W1 Off H2 HB. assert (B0 : bit 0) by (split; lia).
  assert (E1 : t1 = adds 0 a0 a1) by (now apply mp_add_adds).
  assert (E2 : t2 = adds 0 (subs 0 a0 a1) (w_px4 P)).
  { unfold t2, mp_sub_p4. change (radix P) with 64. rewrite subc_loop_subs by auto.
    rewrite addc_loop_adds; auto using subs_words, px4_words. }
  cbv zeta. clearbody t1 t2. rewrite sqr0_run.
  pose proof (sqr0_pro s Off) as H. cbv zeta in H. fold a0 a1 in H. rewrite <- E1, <- E2 in H.
  assert (Wt1 : Forall word t1) by (rewrite E1; apply adds_words).
  assert (Wt2 : Forall word t2) by (rewrite E2; apply adds_words).
  assert (L1 : length t1 = 7%nat) by (rewrite E1; reflexivity). assert (L2 : length t2 = 7%nat) by (rewrite E2; reflexivity).
  clear E1 E2.
  generalize dependent (run (sqr0_a ++ sqr0_b ++ sqr0_c) s). intros s1 (SI & EP & K & M & Z).
  assert (Ht1 : t1 = nth 0 t1 0 :: tl t1) by (destruct t1; [discriminate|reflexivity]).
  assert (Wd : word (nth 0 t1 0)) by (rewrite Ht1 in Wt1; now inversion Wt1).
  destruct (mul_row_ok (nth 0 t1 0) t2 Wd ltac:(intros X; rewrite X in L2; discriminate) Wt2) as [WR VR].
  destruct (words_map _ _ _ Z WR) as [Wz Vz]. rewrite VR in Vz.
  assert (M1 : wat (mem s1) (rg s RSI) 0 7 = t1).
  { transitivity (wat (put (rg s RSI) 0 t1 (mem s)) (rg s RSI) 0 7).
    - rewrite <- (put_wat_other (rg s RSI) 56 t2 (put (rg s RSI) 0 t1 (mem s))) by (rewrite L2; lia).
      apply wat_ext. intros y _. apply M.
    - rewrite <- L1. apply put_wat. }
  assert (M2 : wat (mem s1) (rg s RSI) 56 7 = t2).
  { transitivity (wat (put (rg s RSI) 56 t2 (put (rg s RSI) 0 t1 (mem s))) (rg s RSI) 56 7).
    - apply wat_ext. intros y _. apply M.
    - rewrite <- L2. apply put_wat. }
  destruct (FPMUL_ok RBX RCX (mB RSI 0) (mB RSI 56) (nth 0 t1 0) (tl t1) t2 s1) as (F & Q); auto.
  - rewrite <- M1 at 1. apply mops_tl; [notin|exact SI|reflexivity].
  - rewrite <- M2 at 1. apply mops_wat; [notin|exact SI|reflexivity].
  - rewrite Ht1 in L1. cbn in L1. cbn. lia.
  - now rewrite <- Ht1.
  - rewrite <- Ht1 in Q.
    generalize dependent (run (FPMUL448x448 (mB RSI 0) (mB RSI 56) R8 R9 R10 R11 R12 R13 R14 R15 RBX RCX) s1).
    intros s2 (Mm2 & K2 & _ & R2) Q. rewrite K in K2.
    assert (SI2 : rg s2 RSI = rg s RSI) by (rewrite R2; [exact SI|notin]).
    assert (BP2 : rg s2 RBP = rg s RBP) by (rewrite R2; [exact EP|notin]).
    assert (QE : map (rg s2) [R15; R8; R9; R10; R11; R12; R13] = fpmul_mont P t1 t2).
    { apply mul_post_eq'; auto. }
    pose proof (sqr0_z_ok s2) as H. cbv zeta in H. generalize dependent (run sqr0_z s2). intros s' (M' & BP & R').
    destruct (R' _ _ _ _ _ _ K2) as [K' RG]. rewrite QE, SI2 in M'. injection RG as Q1 Q2 Q3 Q4 Q5.
    assert (LQ : length (fpmul_mont P t1 t2) = 7%nat) by (rewrite <- QE; reflexivity).
    split; [|split].
    + split; auto. intros r Hr. cbn in Hr. destruct Hr as [<-|[<-|[<-|[<-|[<-|[<-|[]]]]]]]; congruence.
    + intros y Hy. rewrite M', put_only.
      * rewrite Mm2, M, put_only, put_only; auto.
        -- intros i Hi. rewrite L1 in Hi. specialize (Hy i). lia.
        -- intros i Hi. rewrite L2 in Hi. specialize (Hy (7 + i)%nat). lia.
      * intros i Hi. rewrite LQ in Hi. specialize (Hy i). lia.
    + transitivity (wat (put (rg s RSI) 0 (fpmul_mont P t1 t2) (mem s2)) (rg s RSI) 0 7).
      * apply wat_ext. intros y _. apply M'.
      * rewrite <- LQ. apply put_wat.
Qed.

(** ** fp2sqr434_c1_asm, lines 699-761: the words of 2 a0 are kept on the stack *)
Definition sqr1_a : list instr := firstn 19 fp2sqr434_c1_asm.
Definition sqr1_b : list instr := firstn 23 (skipn 19 fp2sqr434_c1_asm).
Definition sqr1_z : list instr := skipn (length fp2sqr434_c1_asm - 13) fp2sqr434_c1_asm.
Lemma sqr1_run s : run fp2sqr434_c1_asm s = run sqr1_z
  (run (FPMUL448x448 (mS 0) (mB RDI 56) R8 R9 R10 R11 R12 R13 R14 R15 RBX RCX) (run sqr1_b (run sqr1_a s))).
Proof.
  assert (E : fp2sqr434_c1_asm = sqr1_a ++ sqr1_b ++
    FPMUL448x448 (mS 0) (mB RDI 56) R8 R9 R10 R11 R12 R13 R14 R15 RBX RCX ++ sqr1_z) by reflexivity.
  rewrite E at 1. rewrite !run_app. reflexivity.
Qed.
Lemma sqr1_a_ok s : let a0 := wat (mem s) (rg s RDI) 0 7 in let s1 := run sqr1_a s in
  (rg s1 RDI = rg s RDI /\ rg s1 RSI = rg s RSI /\ rg s1 RBP = rg s RBP) /\ mem s1 = mem s /\
  stk s1 = rg s RBX :: rg s R15 :: rg s R14 :: rg s R13 :: rg s R12 :: stk s /\
  map (rg s1) [R8; R9; R10; R11; R12; R13; R14] = adds 0 a0 a0.
Proof. repeat split; reflexivity. Qed.
Lemma sqr1_b_ok s : let s1 := run sqr1_b s in
  (rg s1 RDI = rg s RDI /\ rg s1 RSI = rg s RSI /\ rg s1 RBP = rg s RBP) /\ mem s1 = mem s /\
  (exists x, stk s1 = (x :: map (rg s) [R9; R10; R11; R12; R13; R14]) ++ stk s) /\
  map (rg s1) zreg = mul_row (rg s R8) (wat (mem s) (rg s RDI) 56 7).
Proof.
  split; [repeat split; reflexivity|]. split; [reflexivity|]. split; [eexists; reflexivity|].
  unfold sqr1_b, fp2sqr434_c1_asm. cbn [firstn skipn app]. sim_cbn. rewrite !Z.lxor_nilpotent. reflexivity.
Qed.
Lemma sqr1_z_ok s : let s' := run sqr1_z s in
  (forall y, mem s' y = put (rg s RSI) 0 (map (rg s) [R15; R8; R9; R10; R11; R12; R13]) (mem s) y) /\
  rg s' RBP = rg s RBP /\
  (forall l v0 v1 v2 v3 v4 r, length l = 7%nat -> stk s = l ++ v0 :: v1 :: v2 :: v3 :: v4 :: r ->
    stk s' = r /\ map (rg s') [RBX; R15; R14; R13; R12] = [v0; v1; v2; v3; v4]).
Proof.
  split; [reflexivity|]. split; [reflexivity|]. intros l v0 v1 v2 v3 v4 r L H.
  do 8 (destruct l as [|? l]; [try discriminate|]); [|discriminate]. cbn. rewrite H. split; reflexivity.
Qed.
Lemma stack_ops C s x l r : length l = 6%nat -> stk s = (x :: l) ++ r -> mops C s (mS 0) 1 l.
Proof.
  intros L K. do 7 (destruct l as [|? l]; [try discriminate|]); [|discriminate].
  cbn [mops]. repeat split; intros s' (_ & K' & _); cbn [rd mS]; rewrite K', K; reflexivity.
Qed.

Lemma fp2sqr434_c1_ok s : let a0 := wat (mem s) (rg s RDI) 0 7 in let a1 := wat (mem s) (rg s RDI) 56 7 in
  let t := mp_addfast P a0 a0 in
  Forall word a0 -> Forall word a1 ->
  valB W a1 + p434 <= W ^ 7 -> valB W t * valB W a1 < W ^ 7 * p434 ->
  let s' := run fp2sqr434_c1_asm s in
  saved s s' /\ only_at (rg s RSI) 7 (mem s) (mem s') /\ wat (mem s') (rg s RSI) 0 7 = fpmul_mont P t a1.
Proof.
  intros a0 a1 t W0 W1 H2 HB.
  assert (E1 : t = adds 0 a0 a0) by (now apply mp_add_adds). cbv zeta. clearbody t. rewrite sqr1_run.
  pose proof (sqr1_a_ok s) as H. cbv zeta in H. fold a0 in H. rewrite <- E1 in H.
  assert (Wt : Forall word t) by (rewrite E1; apply adds_words).
  assert (L1 : length t = 7%nat) by (rewrite E1; reflexivity). clear E1.
  generalize dependent (run sqr1_a s). intros s1 ((DI & SI & EP) & M & K & T).
  pose proof (sqr1_b_ok s1) as H. cbv zeta in H. rewrite DI, M in H. fold a1 in H.
  assert (Ht : t = nth 0 t 0 :: tl t) by (destruct t; [discriminate|reflexivity]).
  assert (T8 : rg s1 R8 = nth 0 t 0) by (rewrite <- T; reflexivity).
  assert (Tt : map (rg s1) [R9; R10; R11; R12; R13; R14] = tl t) by (rewrite <- T; reflexivity).
  rewrite T8, Tt, K in H.
  generalize dependent (run sqr1_b s1). intros s2 ((DI2 & SI2 & EP2) & M2 & (x & K2) & Z).
  assert (Wd : word (nth 0 t 0)) by (rewrite Ht in Wt; now inversion Wt).
  assert (La : length a1 = 7%nat) by apply wat_length.
  assert (Lt : length (tl t) = 6%nat) by (rewrite Ht in L1; cbn in L1; cbn; lia).
  destruct (mul_row_ok (nth 0 t 0) a1 Wd ltac:(discriminate) W1) as [WR VR].
  destruct (words_map _ _ _ Z WR) as [Wz Vz]. rewrite VR in Vz.
  destruct (FPMUL_ok RBX RCX (mS 0) (mB RDI 56) (nth 0 t 0) (tl t) a1 s2) as (F & Q); auto.
  - eapply stack_ops; eauto.
  - apply mops_wat; [notin|exact DI2|now rewrite M2].
  - now rewrite <- Ht.
  - rewrite <- Ht in Q.
    generalize dependent (run (FPMUL448x448 (mS 0) (mB RDI 56) R8 R9 R10 R11 R12 R13 R14 R15 RBX RCX) s2).
    intros s3 (M3 & K3 & _ & R3) Q. rewrite K2 in K3. rewrite M2 in M3.
    assert (SI3 : rg s3 RSI = rg s RSI) by (rewrite R3; [congruence|notin]).
    assert (BP3 : rg s3 RBP = rg s RBP) by (rewrite R3; [congruence|notin]).
    assert (QE : map (rg s3) [R15; R8; R9; R10; R11; R12; R13] = fpmul_mont P t a1) by (apply mul_post_eq'; auto).
    pose proof (sqr1_z_ok s3) as H. cbv zeta in H. generalize dependent (run sqr1_z s3). intros s' (M' & BP & R').
    destruct (R' (x :: tl t) _ _ _ _ _ _ ltac:(cbn [length]; now rewrite Lt) K3) as [K' RG].
    rewrite QE, SI3 in M'. injection RG as Q1 Q2 Q3 Q4 Q5.
    assert (LQ : length (fpmul_mont P t a1) = 7%nat) by (rewrite <- QE; reflexivity).
    split; [|split].
    + split; auto. intros r Hr. cbn in Hr. destruct Hr as [<-|[<-|[<-|[<-|[<-|[<-|[]]]]]]]; congruence.
    + intros y Hy. rewrite M', put_only.
      * congruence.
      * intros i Hi. rewrite LQ in Hi. specialize (Hy i). lia.
    + transitivity (wat (put (rg s RSI) 0 (fpmul_mont P t a1) (mem s3)) (rg s RSI) 0 7).
      * apply wat_ext. intros y _. apply M'.
      * rewrite <- LQ. apply put_wat.
Qed.
