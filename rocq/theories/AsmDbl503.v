(** fp2mul503_c0_asm and fp2mul503_c1_asm. *)
From Verif Require Import Base BaseP Params Wf Digits DigitsP Fp FpP Asm AsmP503 AsmP AsmRedP AsmRed2 AsmDblP AsmDblP2 AsmMul434 AsmAdd434
  AsmSqr434 AsmDbl434 AsmMul503 AsmAdd503 AsmFp503.

Local Notation P := (P503 T64).

(** ** FPDBLMUL512x512: the rounds, then the last step of the reduction, which also stores two words *)
Definition dtail_a : list instr := [MOV RDX (Rg R15); STO (Mm RCX 0) RAX; STO (Mm RCX 8) R8].
Definition dhi : list reg := [R9; R10; R11; R12; R13; R14].
Definition dtail_z : list instr := skipn (length fp2mul503_c1_asm - 12) fp2mul503_c1_asm.
Definition dbl_code8 (M00 M01 M10 M11 : Z -> opnd) : list instr :=
  FPDBLMUL512x512 M00 M01 M10 M11 R8 R9 R10 R11 R12 R13 R14 R15 RAX RBX RBP ++ dtail_z.
Lemma FPDBL_split8 M00 M01 M10 M11 : dbl_code8 M00 M01 M10 M11 =
  dmont2 (mT (w_pp1 P) 24) 3 RBX RBP M00 M01 M10 M11 6 zreg9 ++
  dtail_a ++ muladd2 (mT (w_pp1 P) 24) RBX RBP RBX dhi ++ dtail_z.
Proof. reflexivity. Qed.
Lemma dtail_a_ok s : let s1 := run dtail_a s in
  rg s1 = rg (setr s RDX (rg s R15)) /\ stk s1 = stk s /\
  (forall y, mem s1 y = put (rg s RCX) 0 [rg s RAX; rg s R8] (mem s) y).
Proof. repeat split; reflexivity. Qed.
Lemma dtail_z_mem s y : mem (run dtail_z s) y = put (rg s RCX) 16 (map (rg s) dhi) (mem s) y.
Proof. reflexivity. Qed.
Lemma dtail_z_saved s v0 v1 v2 v3 v4 v5 r : stk s = v0 :: v1 :: v2 :: v3 :: v4 :: v5 :: r ->
  stk (run dtail_z s) = r /\ map (rg (run dtail_z s)) [RBP; RBX; R15; R14; R13; R12] = [v0; v1; v2; v3; v4; v5].
Proof. intros H. cbn -[Z.add Z.sub Z.mul Z.div Z.modulo W over sgn Z.eqb]. rewrite H. split; reflexivity. Qed.

Definition drs8 : list reg := [R15; RAX; R8; R9; R10; R11; R12; R13; R14].
Lemma put_app x l1 : forall d l2 m y, put x d (l1 ++ l2) m y = put x (d + 8 * Z.of_nat (length l1)) l2 (put x d l1 m) y.
Proof.
  induction l1 as [|v l IH]; intros d l2 m y; cbn [app put length].
  - now rewrite Z.add_0_r.
  - rewrite IH. f_equal. lia.
Qed.
Lemma put_same x d l m m' : (forall y, m y = m' y) -> forall y, put x d l m y = put x d l m' y.
Proof. apply put_ext. Qed.

(** r is a b + c d reduced. *)
Definition dmul_post8 (a b c d r : list Z) : Prop :=
  Forall word r /\ length r = 8%nat /\ 0 <= valB W r < valB W a + valB W c + p503 /\
  exists m, 0 <= m < W ^ 8 /\ W ^ 8 * valB W r = valB W a * valB W b + valB W c * valB W d + m * p503.

Definition dtail : list instr := dtail_a ++ muladd2 (mT (w_pp1 P) 24) RBX RBP RBX dhi ++ dtail_z.
Lemma dtail_ok s N : words s drs8 -> N <= W ^ 8 -> valr s drs8 < W * N - (W - 1) * p503 ->
  (forall v0 v1 v2 v3 v4 v5 r, stk s = v0 :: v1 :: v2 :: v3 :: v4 :: v5 :: r ->
     stk (run dtail s) = r /\ map (rg (run dtail s)) [RBP; RBX; R15; R14; R13; R12] = [v0; v1; v2; v3; v4; v5]) /\
  exists r, (Forall word r /\ length r = 8%nat /\ 0 <= valB W r < N /\
    exists m, word m /\ W * valB W r = valr s drs8 + m * p503) /\
    forall y, mem (run dtail s) y = put (rg s RCX) 0 r (mem s) y.
Proof.
  intros Hw HN HB. set (m := rg s R15). assert (Wm : word m) by (eapply words_in; [exact Hw|now left]).
  assert (WA : word (rg s RAX)) by (eapply words_in; [exact Hw|cbn; tauto]).
  assert (W8 : word (rg s R8)) by (eapply words_in; [exact Hw|cbn; tauto]).
  assert (Wz : words s dhi).
  { unfold words. apply Forall_forall. intros r Hr. eapply words_in; [exact Hw|]. cbn in Hr |- *. tauto. }
  set (h := valB W hi503). assert (Hp1 : p503 + 1 = W ^ 3 * h) by reflexivity.
  set (z := valr s dhi).
  assert (EV : valr s drs8 = m + W * (rg s RAX + W * (rg s R8 + W * z))) by reflexivity.
  assert (EQ : valr s drs8 + m * p503 = W * (rg s RAX + W * (rg s R8 + W * (z + m * h)))).
  { rewrite EV. replace p503 with (W ^ 3 * h - 1) by lia. change (W ^ 3) with (W * (W * W)). ring. }
  assert (Mp : m * p503 <= (W - 1) * p503).
  { apply Z.mul_le_mono_nonneg_r; [discriminate|]. unfold word in Wm. lia. }
  assert (TN : W * (rg s RAX + W * (rg s R8 + W * (z + m * h))) < W * N) by (rewrite <- EQ; lia).
  apply Z.mul_lt_mono_pos_l in TN; [|reflexivity].
  assert (T6 : z + m * h < W ^ 6).
  { apply Z.mul_lt_mono_pos_l with (W * W); [reflexivity|]. change (W ^ 8) with (W * W * W ^ 6) in HN.
    unfold word in WA, W8. assert (0 <= W * rg s R8) by (apply Z.mul_nonneg_nonneg; [discriminate|lia]). lia. }
  unfold dtail. rewrite !run_app.
  pose proof (dtail_a_ok s) as H. cbv zeta in H. generalize dependent (run dtail_a s). intros s1 (R1 & K1 & M1).
  assert (D1 : rg s1 RDX = m) by (rewrite R1; reflexivity).
  assert (Sd : forall r, In r dhi -> rg (setr s1 RBX 0) r = rg s r).
  { intros r Hr. cbn in Hr. cbn [setr rg]. rewrite R1. destruct Hr as [<-|[<-|[<-|[<-|[<-|[<-|[]]]]]]]; reflexivity. }
  pose proof (muladd2_ok (mT (w_pp1 P) 24) RBX RBP ltac:(discriminate) ltac:(discriminate) ltac:(discriminate)
    (RBX :: RBX :: RBP :: dhi) RBX dhi hi503 s1 ltac:(discriminate)) as K.
  cbv zeta in K. rewrite D1, (valr_same s (setr s1 RBX 0) dhi Sd) in K. fold z h in K.
  generalize dependent (run (muladd2 (mT (w_pp1 P) 24) RBX RBP RBX dhi) s1). intros s2 K.
  destruct K as (F2 & W2 & E2); auto.
  { cbn. lia. } { apply incl_refl. } { nodup. } { notin. } { notin. } { notin. } { apply hi503_ops. } { apply hi503_word. }
  { eapply words_same; [exact Sd|exact Wz]. }
  destruct F2 as (M2 & K2 & _ & R2).
  split.
  - intros v0 v1 v2 v3 v4 v5 r Hs. apply dtail_z_saved. congruence.
  - exists ([rg s RAX; rg s R8] ++ map (rg s2) dhi).
    assert (Wr : Forall word ([rg s RAX; rg s R8] ++ map (rg s2) dhi)).
    { apply Forall_app. split; [auto|]. exact (proj2 (Forall_map _ _ _) W2). }
    assert (VE : valB W ([rg s RAX; rg s R8] ++ map (rg s2) dhi) = rg s RAX + W * (rg s R8 + W * (z + m * h))).
    { rewrite <- E2. reflexivity. }
    split.
    + split; auto. split; [reflexivity|]. rewrite VE. split.
      * split; auto. rewrite <- VE. now apply valB_nonneg.
      * exists m. split; auto.
    + intros y. rewrite dtail_z_mem, put_app. change (0 + 8 * Z.of_nat (length [rg s RAX; rg s R8])) with 16.
      assert (RC : rg s2 RCX = rg s RCX) by (rewrite R2 by notin; rewrite R1; reflexivity).
      rewrite RC. apply put_ext. intros y'. rewrite M2. apply M1.
Qed.

Lemma dbl_run8 M00 M01 M10 M11 s : run (dbl_code8 M00 M01 M10 M11) s =
  run dtail (run (dmont2 (mT (w_pp1 P) 24) 3 RBX RBP M00 M01 M10 M11 6 zreg9) s).
Proof. rewrite FPDBL_split8, run_app. reflexivity. Qed.
Lemma eight {A} (l : list A) : length l = 8%nat -> exists x y z, l = x :: y ++ [z] /\ length y = 6%nat.
Proof.
  intros H. do 9 (destruct l as [|? l]; [try discriminate|]); [|discriminate].
  eexists _, [_; _; _; _; _; _], _. split; reflexivity.
Qed.
Lemma dbl_ok8 M00 M01 M10 M11 a b c d s : let C := clob2 RBX RBP zreg9 in
  length a = 8%nat -> length b = 8%nat -> length c = 8%nat -> length d = 8%nat ->
  mops C s M00 0 a -> mops C s M01 0 c -> mops C s M10 0 b -> mops C s M11 0 d ->
  Forall word a -> Forall word b -> Forall word c -> Forall word d ->
  words s zreg9 -> valr s zreg9 = nth 0 b 0 * valB W a -> valB W a + valB W c + p503 <= W ^ 8 ->
  let s' := run (dbl_code8 M00 M01 M10 M11) s in
  (forall v0 v1 v2 v3 v4 v5 r, stk s = v0 :: v1 :: v2 :: v3 :: v4 :: v5 :: r ->
     stk s' = r /\ map (rg s') [RBP; RBX; R15; R14; R13; R12] = [v0; v1; v2; v3; v4; v5]) /\
  exists r, dmul_post8 a b c d r /\ forall y, mem s' y = put (rg s RCX) 0 r (mem s) y.
Proof.
  intros C La Lb Lc Ld Ha Hc Hb Hd Wa Wb Wc Wd Hw HV HN. cbv zeta. rewrite dbl_run8.
  destruct (eight b Lb) as (b0 & bs & be & -> & Lbs). destruct (eight d Ld) as (d0 & ds & de & -> & Lds).
  pose proof (dmont_ok2 (mT (w_pp1 P) 24) hi503 3 p503 RBX RBP ltac:(discriminate) ltac:(discriminate) ltac:(discriminate)
    hi503_ops hi503_word ltac:(lia) ltac:(discriminate) p503_1 p503_pos
    M00 M01 a c Wa Wc ltac:(congruence) M10 M11 C b0 bs be d0 ds de zreg9 s) as K.
  cbv zeta in K. rewrite Lbs, La in K.
  assert (RR : rots 7 zreg9 = drs8) by reflexivity. rewrite RR in K. clear RR.
  generalize dependent (run (dmont2 (mT (w_pp1 P) 24) 3 RBX RBP M00 M01 M10 M11 6 zreg9) s). intros s1 K.
  destruct K as (F & W1 & V1 & m & Hm & E); auto.
  { apply incl_refl. }
  { split; [nodup|]. repeat split; notin. }
  cbn [length] in Hm, E. rewrite Lbs in Hm, E. change (Z.of_nat 7) with 7 in Hm, E.
  destruct F as (M1 & K1 & _ & R1).
  destruct (dtail_ok s1 (valB W a + valB W c + p503)) as (ST & r & (Wr & Lr & Vr & m' & Wm' & Er) & Mr); auto; try apply V1.
  split.
  - intros v0 v1 v2 v3 v4 v5 q Hs. apply ST. congruence.
  - exists r. split.
    + split; auto. split; auto. split; auto. exists (m + W ^ 7 * m'). split.
      * unfold word in Wm'. change (W ^ 8) with (W ^ 7 * W). assert (0 < W ^ 7) by reflexivity.
        apply (digit_bound m m' (W ^ 7) W); auto.
      * change (W ^ 8) with (W ^ 7 * W). rewrite <- Z.mul_assoc, Er, Z.mul_add_distr_l, E. ring.
    + intros y. rewrite Mr, M1, R1 by notin. reflexivity.
Qed.
(** ** fp2mul503_c1_asm, lines 527-572 *)
Definition c1_pro : list instr := firstn 25 fp2mul503_c1_asm.
Lemma c1_run s : run fp2mul503_c1_asm s =
  run (dbl_code8 (mB RDI 64) (mB RDI 0) (mB RSI 0) (mB RSI 64)) (run c1_pro s).
Proof.
  assert (E : fp2mul503_c1_asm = c1_pro ++ dbl_code8 (mB RDI 64) (mB RDI 0) (mB RSI 0) (mB RSI 64)) by reflexivity.
  now rewrite E, run_app.
Qed.
Lemma c1_pro_regs s : map (rg (run c1_pro s)) zreg9 = mul_row (mem s (rg s RSI + 0)) (wat (mem s) (rg s RDI) 64 8).
Proof.
  unfold c1_pro, fp2mul503_c1_asm. cbn [firstn app]. sim_cbn. rewrite ?Z.lxor_nilpotent. reflexivity.
Qed.
Lemma c1_pro_ok s : let s1 := run c1_pro s in
  mem s1 = mem s /\ rg s1 RDI = rg s RDI /\ rg s1 RSI = rg s RSI /\ rg s1 RCX = rg s RDX /\
  stk s1 = rg s RBP :: rg s RBX :: rg s R15 :: rg s R14 :: rg s R13 :: rg s R12 :: stk s.
Proof. repeat split; reflexivity. Qed.

Lemma dbl_end8 s s' x r : length r = 8%nat ->
  (forall y, mem s' y = put x 0 r (mem s) y) -> only_at x 8 (mem s) (mem s') /\ wat (mem s') x 0 8 = r.
Proof.
  intros L M. split.
  - intros y Hy. rewrite M, put_only; auto. intros i Hi. rewrite L in Hi. specialize (Hy i). lia.
  - transitivity (wat (put x 0 r (mem s)) x 0 8); [apply wat_ext; intros y _; apply M|]. rewrite <- L. apply put_wat.
Qed.
Lemma fp2mul503_c1_ok s :
  let a0 := wat (mem s) (rg s RDI) 0 8 in let a1 := wat (mem s) (rg s RDI) 64 8 in
  let b0 := wat (mem s) (rg s RSI) 0 8 in let b1 := wat (mem s) (rg s RSI) 64 8 in
  Forall word a0 -> Forall word a1 -> Forall word b0 -> Forall word b1 ->
  valB W a1 + valB W a0 + p503 <= W ^ 8 ->
  let s' := run fp2mul503_c1_asm s in
  saved s s' /\ only_at (rg s RDX) 8 (mem s) (mem s') /\ dmul_post8 a1 b0 a0 b1 (wat (mem s') (rg s RDX) 0 8).
Proof.
  intros a0 a1 b0 b1 Wa0 Wa1 Wb0 Wb1 HN. cbv zeta. rewrite c1_run.
  assert (N0 : mem s (rg s RSI + 0) = nth 0 b0 0) by reflexivity.
  pose proof (c1_pro_regs s) as Z. fold a1 in Z. rewrite N0 in Z.
  pose proof (c1_pro_ok s) as H. cbv zeta in H. generalize dependent (run c1_pro s).
  intros s1 Z (M1 & RI & RS & RC & K1).
  assert (La0 : length a0 = 8%nat) by apply wat_length. assert (La1 : length a1 = 8%nat) by apply wat_length.
  assert (Lb0 : length b0 = 8%nat) by apply wat_length. assert (Lb1 : length b1 = 8%nat) by apply wat_length.
  assert (Wd : word (nth 0 b0 0)) by (inversion Wb0; assumption).
  destruct (mul_row_ok (nth 0 b0 0) a1 Wd ltac:(discriminate) Wa1) as [WR VR].
  destruct (words_map _ _ _ Z WR) as [Wz Vz]. rewrite VR in Vz.
  pose proof (dbl_ok8 (mB RDI 64) (mB RDI 0) (mB RSI 0) (mB RSI 64) a1 b0 a0 b1 s1 La1 Lb0 La0 Lb1) as D.
  cbv zeta in D. generalize dependent (run (dbl_code8 (mB RDI 64) (mB RDI 0) (mB RSI 0) (mB RSI 64)) s1). intros s' D.
  destruct D as (RG & r & Q & M'); auto; try (apply mops_wat; [notin|assumption|now rewrite M1]).
  destruct (RG _ _ _ _ _ _ _ K1) as [K' RG']. clear RG.
  assert (L : length r = 8%nat) by apply Q.
  rewrite RC in M'. rewrite <- M1. destruct (dbl_end8 s1 s' _ r L M') as [O ->].
  split; [now apply saved_regs|]. split; auto.
Qed.

(** ** fp2mul503_c0_asm, lines 438-516 *)
Definition c0_a : list instr := firstn 31 fp2mul503_c0_asm.
Definition c0_b : list instr := firstn 27 (skipn 31 fp2mul503_c0_asm).
Lemma c0_run s : run fp2mul503_c0_asm s =
  run (dbl_code8 (mB RDI 0) (mB RDI 64) (mB RSI 0) (mB RCX 0)) (run c0_b (run c0_a s)).
Proof.
  assert (E : fp2mul503_c0_asm = c0_a ++ c0_b ++ dbl_code8 (mB RDI 0) (mB RDI 64) (mB RSI 0) (mB RCX 0)) by reflexivity.
  now rewrite E, !run_app.
Qed.
Definition swap2 (l : list Z) (x y : Z) : list Z := firstn 6 l ++ [x; y].
Lemma c0_a_regs s : let b1 := wat (mem s) (rg s RSI) 64 8 in let s1 := run c0_a s in
  (rg s1 RDI = rg s RDI /\ rg s1 RSI = rg s RSI /\ rg s1 RCX = rg s RDX /\ rg s1 RBX = rg s RBX /\ rg s1 RBP = rg s RBP) /\
  stk s1 = rg s R15 :: rg s R14 :: rg s R13 :: rg s R12 :: stk s /\
  map (rg s1) [R8; R9; R10; R11; R12; R13; R14; R15] =
    subs 0 t503_px8 (swap2 b1 (put (rg s RDX) 0 [rg s1 R8; rg s1 R9] (mem s) (rg s RSI + 112))
                              (put (rg s RDX) 0 [rg s1 R8; rg s1 R9] (mem s) (rg s RSI + 120))).
Proof. repeat split; reflexivity. Qed.
Lemma c0_a_mem s y : mem (run c0_a s) y = put (rg s RDX) 0 [rg (run c0_a s) R8; rg (run c0_a s) R9] (mem s) y.
Proof. unfold c0_a, fp2mul503_c0_asm. cbn [firstn skipn app]. sim_cbn. reflexivity. Qed.
Lemma c0_b_ok s : let c := rg s RCX in let m := mem s in let x := rg s RDI in
  let s1 := run c0_b s in
  (rg s1 RDI = rg s RDI /\ rg s1 RSI = rg s RSI /\ rg s1 RCX = rg s RCX) /\
  stk s1 = rg s RBP :: rg s RBX :: stk s /\
  (forall y, mem s1 y = put c 16 (map (rg s) [R10; R11; R12; R13; R14; R15]) m y) /\
  map (rg s1) zreg9 = mul_row (put c 16 (map (rg s) [R10]) m (rg s RSI + 0))
    [put c 16 (map (rg s) [R10]) m (x + 0); put c 16 (map (rg s) [R10; R11]) m (x + 8);
     put c 16 (map (rg s) [R10; R11; R12]) m (x + 16); put c 16 (map (rg s) [R10; R11; R12; R13]) m (x + 24);
     put c 16 (map (rg s) [R10; R11; R12; R13; R14]) m (x + 32);
     put c 16 (map (rg s) [R10; R11; R12; R13; R14; R15]) m (x + 40);
     put c 16 (map (rg s) [R10; R11; R12; R13; R14; R15]) m (x + 48);
     put c 16 (map (rg s) [R10; R11; R12; R13; R14; R15]) m (x + 56)].
Proof.
  intros c m x s1. do 3 (split; [repeat split; reflexivity|]).
  unfold s1, c0_b, fp2mul503_c0_asm. cbn [firstn skipn app]. sim_cbn. rewrite ?Z.lxor_nilpotent. reflexivity.
Qed.
(** Eight words at x do not meet the sixteen words at y. *)
Definition clear16 (x y : Z) : Prop := x + 64 <= y \/ y + 128 <= x.
Lemma c0_pro_ok s : let b1 := wat (mem s) (rg s RSI) 64 8 in let e := subs 0 t503_px8 b1 in
  clear16 (rg s RDX) (rg s RDI) -> clear16 (rg s RDX) (rg s RSI) ->
  let s2 := run c0_b (run c0_a s) in
  (rg s2 RDI = rg s RDI /\ rg s2 RSI = rg s RSI /\ rg s2 RCX = rg s RDX) /\
  stk s2 = rg s RBP :: rg s RBX :: rg s R15 :: rg s R14 :: rg s R13 :: rg s R12 :: stk s /\
  (forall y, mem s2 y = put (rg s RDX) 0 e (mem s) y) /\
  map (rg s2) zreg9 = mul_row (mem s (rg s RSI + 0)) (wat (mem s) (rg s RDI) 0 8).
Proof.
  intros b1 e D1 D2. unfold clear16 in D1, D2. cbv zeta.
  pose proof (c0_a_mem s) as M. pose proof (c0_a_regs s) as H. cbv zeta in H. fold b1 in H.
  generalize dependent (run c0_a s). intros s1 M ((DI & SI & CX & BX & BP) & K & T).
  rewrite !put_out in T by (cbn [length]; lia).
  assert (Sw : swap2 b1 (mem s (rg s RSI + 112)) (mem s (rg s RSI + 120)) = b1) by reflexivity. rewrite Sw in T. fold e in T.
  assert (PE : forall y, put (rg s1 RCX) 16 (map (rg s1) [R10; R11; R12; R13; R14; R15]) (mem s1) y =
    put (rg s RDX) 0 e (mem s) y).
  { intros y. rewrite CX, <- T. cbn [map put].
    destruct (y =? _); auto. destruct (y =? _); auto. destruct (y =? _); auto. destruct (y =? _); auto.
    destruct (y =? _); auto. destruct (y =? _); auto. rewrite M. reflexivity. }
  assert (MO : forall y l, (length l <= 6)%nat -> y + 8 <= rg s RDX \/ rg s RDX + 64 <= y ->
    put (rg s1 RCX) 16 l (mem s1) y = mem s y).
  { intros y l L Hy. rewrite put_out by (rewrite CX; lia). rewrite M, put_out by (cbn [length]; lia). reflexivity. }
  pose proof (c0_b_ok s1) as H. cbv zeta in H. generalize dependent (run c0_b s1).
  intros s2 ((DI2 & SI2 & CX2) & K2 & M2 & Z2).
  split; [split; [congruence|split; congruence]|]. split; [congruence|]. split.
  - intros y. rewrite M2. apply PE.
  - rewrite Z2, !MO by (try (cbn [map length]; lia); rewrite ?DI, ?SI; lia). rewrite DI, SI. reflexivity.
Qed.
Lemma fp2mul503_c0_ok s :
  let a0 := wat (mem s) (rg s RDI) 0 8 in let a1 := wat (mem s) (rg s RDI) 64 8 in
  let b0 := wat (mem s) (rg s RSI) 0 8 in let b1 := wat (mem s) (rg s RSI) 64 8 in
  clear16 (rg s RDX) (rg s RDI) -> clear16 (rg s RDX) (rg s RSI) ->
  Forall word a0 -> Forall word a1 -> Forall word b0 -> Forall word b1 ->
  valB W a0 + valB W a1 + p503 <= W ^ 8 ->
  let s' := run fp2mul503_c0_asm s in
  saved s s' /\ only_at (rg s RDX) 8 (mem s) (mem s') /\
  dmul_post8 a0 b0 a1 (subs 0 t503_px8 b1) (wat (mem s') (rg s RDX) 0 8).
Proof.
  intros a0 a1 b0 b1 D1 D2 Wa0 Wa1 Wb0 Wb1 HN. cbv zeta. rewrite c0_run.
  assert (N0 : mem s (rg s RSI + 0) = nth 0 b0 0) by reflexivity.
  pose proof (c0_pro_ok s D1 D2) as H. cbv zeta in H. fold a0 b1 in H. rewrite N0 in H.
  assert (Le : length (subs 0 t503_px8 b1) = 8%nat) by reflexivity.
  assert (We : Forall word (subs 0 t503_px8 b1)) by apply subs_words.
  remember (subs 0 t503_px8 b1) as e eqn:E0. clear E0.
  generalize dependent (run c0_b (run c0_a s)).
  intros s1 ((RI & RS & RC) & K1 & M1 & Z).
  assert (La0 : length a0 = 8%nat) by apply wat_length. assert (La1 : length a1 = 8%nat) by apply wat_length.
  assert (Lb0 : length b0 = 8%nat) by apply wat_length.
  assert (Wd : word (nth 0 b0 0)) by (inversion Wb0; assumption).
  destruct (mul_row_ok (nth 0 b0 0) a0 Wd ltac:(discriminate) Wa0) as [WR VR].
  destruct (words_map _ _ _ Z WR) as [Wz Vz]. rewrite VR in Vz.
  unfold clear16 in D1, D2.
  assert (same : forall x d, x + d + 64 <= rg s RDX \/ rg s RDX + 64 <= x + d ->
    wat (mem s1) x d 8 = wat (mem s) x d 8).
  { intros x d Hx. rewrite <- (put_wat_other (rg s RDX) 0 e (mem s) x d 8) by (rewrite Le; lia).
    apply wat_ext. intros y _. apply M1. }
  assert (Ee : e = wat (put (rg s RDX) 0 e (mem s)) (rg s RDX) 0 8) by (pose proof (put_wat (rg s RDX) e 0 (mem s)) as HH; now rewrite Le in HH).
  pose proof (dbl_ok8 (mB RDI 0) (mB RDI 64) (mB RSI 0) (mB RCX 0) a0 b0 a1 e s1 La0 Lb0 La1 Le) as D.
  cbv zeta in D. generalize dependent (run (dbl_code8 (mB RDI 0) (mB RDI 64) (mB RSI 0) (mB RCX 0)) s1). intros s' D.
  destruct D as (RG & r & Q & M'); auto.
  - apply mops_wat; [notin|assumption|apply same; lia].
  - apply mops_wat; [notin|assumption|apply same; lia].
  - apply mops_wat; [notin|assumption|apply same; lia].
  - rewrite Ee. apply mops_wat; [notin|assumption|]. apply wat_ext. intros y _. apply M1.
  - destruct (RG _ _ _ _ _ _ _ K1) as [K' RG']. clear RG.
    assert (L : length r = 8%nat) by apply Q.
    rewrite RC in M'. destruct (dbl_end8 s1 s' _ r L M') as [O ->].
    split; [now apply saved_regs|]. split; auto.
    intros y Hy. rewrite O by exact Hy. rewrite M1, put_only; auto. intros i Hi. rewrite Le in Hi. specialize (Hy i). lia.
Qed.
(** ** Values *)
Lemma px8_sub8 b : Forall word b -> length b = 8%nat -> valB W b <= 8 * p503 -> valB W (subs 0 t503_px8 b) = 8 * p503 - valB W b.
Proof.
  intros Wb Lb Hb. assert (B0 : bit 0) by (split; lia).
  assert (W8 : Forall word t503_px8) by (repeat (apply Forall_cons; [split; [discriminate|reflexivity]|]); apply Forall_nil).
  assert (V8 : valB W t503_px8 = 8 * p503) by reflexivity. assert (L8 : length t503_px8 = 8%nat) by reflexivity.
  generalize dependent t503_px8. intros px W8 V8 L8.
  destruct (subc_ok P (Wf_P503 T64) px b (ok_words8 px L8 W8) (ok_words8 _ Lb Wb)) as (c & r & E & O & Hc & V).
  change (radix P) with 64 in E. rewrite subc_loop_subs in E by auto. apply (f_equal snd) in E. cbn [snd] in E. rewrite E.
  pose proof (ok_bound P (Wf_P503 T64) r O) as Br.
  change (2 ^ radix P) with W in V, Br. rewrite V8 in V.
  change (par_R P) with (W ^ 8) in V, Br. assert (0 < W ^ 8) by reflexivity.
  generalize dependent p503. generalize dependent (W ^ 8). intros Q; intros.
  assert (c = 0) by nia. subst c. lia.
Qed.
Lemma dmul_small8 a b c d r : dmul_post8 a b c d r -> valB W a * valB W b + valB W c * valB W d < W ^ 8 * p503 ->
  0 <= valB W r < 2 * p503 /\ (W ^ 8 * valB W r) mod p503 = (valB W a * valB W b + valB W c * valB W d) mod p503.
Proof.
  intros (_ & _ & [V0 _] & m & Hm & E) H. split.
  - split; auto. assert (m * p503 < W ^ 8 * p503) by (apply Z.mul_lt_mono_pos_r; [reflexivity|lia]).
    apply Z.mul_lt_mono_pos_l with (W ^ 8); [reflexivity|]. rewrite E. lia.
  - rewrite E. apply Z.mod_add. discriminate.
Qed.
Lemma fp2mul503_c1_val s :
  let a0 := wat (mem s) (rg s RDI) 0 8 in let a1 := wat (mem s) (rg s RDI) 64 8 in
  let b0 := wat (mem s) (rg s RSI) 0 8 in let b1 := wat (mem s) (rg s RSI) 64 8 in
  Forall word (a0 ++ a1 ++ b0 ++ b1) ->
  valB W a0 + valB W a1 + p503 <= W ^ 8 ->
  valB W a0 * valB W b1 + valB W a1 * valB W b0 < W ^ 8 * p503 ->
  let s' := run fp2mul503_c1_asm s in let r := wat (mem s') (rg s RDX) 0 8 in
  saved s s' /\ only_at (rg s RDX) 8 (mem s) (mem s') /\ Forall word r /\ 0 <= valB W r < 2 * p503 /\
  (W ^ 8 * valB W r) mod p503 = (valB W a0 * valB W b1 + valB W a1 * valB W b0) mod p503.
Proof.
  intros a0 a1 b0 b1 HF HN HB. apply Forall_app in HF as [F1 HF]. apply Forall_app in HF as [F2 HF]. apply Forall_app in HF as [F3 F4].
  assert (HN' : valB W a1 + valB W a0 + p503 <= W ^ 8) by (rewrite (Z.add_comm (valB W a1)); exact HN).
  destruct (fp2mul503_c1_ok s F1 F2 F3 F4 HN') as (A & B & Q). cbv zeta. split; auto. split; auto.
  fold a0 a1 b0 b1 in Q. destruct (dmul_small8 _ _ _ _ _ Q) as [Q1 Q2]; [rewrite Z.add_comm; exact HB|].
  split; [apply Q|]. split; auto. rewrite Q2. f_equal. apply Z.add_comm.
Qed.
Lemma fp2mul503_c0_val s :
  let a0 := wat (mem s) (rg s RDI) 0 8 in let a1 := wat (mem s) (rg s RDI) 64 8 in
  let b0 := wat (mem s) (rg s RSI) 0 8 in let b1 := wat (mem s) (rg s RSI) 64 8 in
  clear16 (rg s RDX) (rg s RDI) -> clear16 (rg s RDX) (rg s RSI) ->
  Forall word (a0 ++ a1 ++ b0 ++ b1) ->
  valB W a0 + valB W a1 + p503 <= W ^ 8 -> valB W b1 <= 8 * p503 ->
  valB W a0 * valB W b0 + valB W a1 * (8 * p503 - valB W b1) < W ^ 8 * p503 ->
  let s' := run fp2mul503_c0_asm s in let r := wat (mem s') (rg s RDX) 0 8 in
  saved s s' /\ only_at (rg s RDX) 8 (mem s) (mem s') /\ Forall word r /\ 0 <= valB W r < 2 * p503 /\
  (W ^ 8 * valB W r) mod p503 = (valB W a0 * valB W b0 - valB W a1 * valB W b1) mod p503.
Proof.
  intros a0 a1 b0 b1 D1 D2 HF HN H8 HB. apply Forall_app in HF as [F1 HF]. apply Forall_app in HF as [F2 HF]. apply Forall_app in HF as [F3 F4].
  destruct (fp2mul503_c0_ok s D1 D2 F1 F2 F3 F4 HN) as (A & B & Q). cbv zeta. split; auto. split; auto.
  fold a0 a1 b0 b1 in Q. pose proof (px8_sub8 b1 F4 (wat_length _ _ _ _) H8) as E8.
  destruct (dmul_small8 _ _ _ _ _ Q) as [Q1 Q2]; [rewrite E8; exact HB|]. split; [apply Q|]. split; auto. rewrite Q2, E8.
  replace (valB W a0 * valB W b0 + valB W a1 * (8 * p503 - valB W b1))
    with (valB W a0 * valB W b0 - valB W a1 * valB W b1 + (8 * valB W a1) * p503) by ring.
  apply Z.mod_add. discriminate.
Qed.
