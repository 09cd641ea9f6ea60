(** fpmul610_asm, continued: the last row, the rounds and the result. *)
From Verif Require Import Base BaseP Params Digits Fp FpP Asm AsmP610 AsmM610 AsmP AsmRedP AsmRed3 AsmMul434 AsmAdd434 AsmAdd610 AsmMul610.

Local Notation P := (P610 T64).

(** The last row stores three words of the result while it reads the operand at rdi. *)
Definition p1a : list instr := firstn 10 (mulc (mB RCX 0) 72 zs0).
Definition p1b : list instr := firstn 4 (skipn 10 (mulc (mB RCX 0) 72 zs0)).
Definition p1c : list instr := firstn 5 (skipn 14 (mulc (mB RCX 0) 72 zs0)).
Lemma p1_split : part1 (mB RCX 0) 72 zs0 = p1a ++ p1b ++ p1c. Proof. reflexivity. Qed.
Definition st1 (x v : Z) (m : Z -> Z) : Z -> Z := fun y => if y =? x then v else m y.
Lemma p1a_run s a0 a1 a2 a3 K : stk s = a0 :: a1 :: a2 :: a3 :: K ->
  let s' := run p1a s in let h := rg s R11 in let d := mem s (rg s RSI + (0 + 72)) in
  let v0 := (d * at_ s 0) mod W + a0 + 0 in let u0 := d * at_ s 0 / W + a1 + v0 / W in
  let v1 := u0 mod W + (d * at_ s 8) mod W + 0 in let u1 := d * at_ s 8 / W + a2 + u0 / W in
  mem s' = st1 (rg s RCX + (0 + 0)) (v1 mod W) (mem s) /\ stk s' = a0 :: a1 :: a2 :: v0 mod W :: K /\ same3 s s' /\
  rg s' RDX = d /\ rg s' RBP = u1 mod W /\ cf s' = v1 / W /\ ovf s' = u1 / W /\
  map (rg s') zs0 = map (rg s) (removelast zs0) ++ [Z.lxor h h].
Proof. destruct s as [g c o m st0 l]. cbn [stk]. intros ->. repeat split; reflexivity. Qed.
Lemma p1b_run s : let s' := run p1b s in let d := rg s RDX in
  let v2 := rg s RBP + (d * at_ s 16) mod W + cf s in let u2 := rg s R12 + d * at_ s 16 / W + ovf s in
  mem s' = st1 (rg s RCX + (0 + 8)) (v2 mod W) (mem s) /\ stk s' = stk s /\ same3 s s' /\
  rg s' RDX = d /\ cf s' = v2 / W /\ ovf s' = u2 / W /\ map (rg s') zs0 = u2 mod W :: map (rg s) (tl zs0).
Proof. repeat split; reflexivity. Qed.
Lemma p1c_run s : let s' := run p1c s in let d := rg s RDX in
  let v3 := rg s R12 + (d * at_ s 24) mod W + cf s in let u3 := rg s R13 + d * at_ s 24 / W + ovf s in
  mem s' = st1 (rg s RCX + (0 + 16)) (v3 mod W) (mem s) /\ stk s' = stk s /\ same3 s s' /\
  rg s' RDX = d /\ rg s' RBP = (d * at_ s 32) mod W /\ rg s' RBX = d * at_ s 32 / W /\
  cf s' = v3 / W /\ ovf s' = u3 / W /\ map (rg s') (tl zs0) = u3 mod W :: map (rg s) (tl (tl zs0)).
Proof. repeat split; reflexivity. Qed.

Definition three (x w1 w2 w3 : Z) (m : Z -> Z) : Z -> Z :=
  st1 (x + (0 + 16)) w3 (st1 (x + (0 + 8)) w2 (st1 (x + (0 + 0)) w1 m)).
Lemma st1_ne x v m y : y <> x -> st1 x v m y = m y.
Proof. intros H. unfold st1. now destruct (Z.eqb_spec y x). Qed.
Lemma part1_last s a0 a1 a2 a3 K : stk s = a0 :: a1 :: a2 :: a3 :: K -> apart10 (rg s RCX) (rg s RDI) ->
  let s' := run (part1 (mB RCX 0) 72 zs0) s in let h := rg s R11 in let d := mem s (rg s RSI + (0 + 72)) in
  let w := lo4 d a0 a1 a2 (rg s R12) (rg s R13) (at_ s 0) (at_ s 8) (at_ s 16) (at_ s 24) in
  mem s' = three (rg s RCX) (nth 1 w 0) (nth 2 w 0) (nth 3 w 0) (mem s) /\ stk s' = a0 :: a1 :: a2 :: nth 0 w 0 :: K /\ same3 s s' /\
  rg s' RDX = d /\ rg s' RBP = (d * at_ s 32) mod W /\ rg s' RBX = d * at_ s 32 / W /\ cf s' = nth 4 w 0 /\ ovf s' = nth 5 w 0 /\
  map (rg s') (tl zs0) = nth 6 w 0 :: map (rg s) (removelast (tl (tl zs0))) ++ [Z.lxor h h].
Proof.
  intros Hk HA. cbv zeta. rewrite p1_split, !run_app.
  pose proof (p1a_run s a0 a1 a2 a3 K Hk) as A. cbv zeta in A. generalize dependent (run p1a s). intros s1 A.
  destruct A as (M1 & K1 & (I1 & S1 & C1) & D1 & B1 & F1 & O1 & R1).
  pose proof (p1b_run s1) as B. cbv zeta in B. generalize dependent (run p1b s1). intros s2 B.
  destruct B as (M2 & K2 & (I2 & S2 & C2) & D2 & F2 & O2 & R2).
  pose proof (p1c_run s2) as C. cbv zeta in C. generalize dependent (run p1c s2). intros s3 C.
  destruct C as (M3 & K3 & (I3 & S3 & C3) & D3 & B3 & X3 & F3 & O3 & R3).
  assert (E16 : at_ s1 16 = at_ s 16).
  { unfold at_. rewrite M1, I1. apply st1_ne. clear - HA. unfold apart10 in HA. lia. }
  assert (E24 : at_ s2 24 = at_ s 24).
  { unfold at_. rewrite M2, I2, M1, I1, C1. rewrite !st1_ne by (clear - HA; unfold apart10 in HA; lia). reflexivity. }
  assert (E32 : at_ s2 32 = at_ s 32).
  { unfold at_. rewrite M2, I2, M1, I1, C1. rewrite !st1_ne by (clear - HA; unfold apart10 in HA; lia). reflexivity. }
  cbn [zs0 map tl removelast app] in R1, R2, R3 |- *.
  injection R1 as A12 A13 A14 A15 A8 A9 A10 A11. injection R2 as Q12 Q13 Q14 Q15 Q8 Q9 Q10 Q11.
  injection R3 as T13 T14 T15 T8 T9 T10 T11.
  unfold lo4. cbv zeta. cbn [nth].
  rewrite E16, D1, B1, F1, O1 in *. rewrite A12, A13, A14, A15, A8, A9, A10, A11 in *.
  rewrite D2, E24, E32, F2, O2, Q12, Q13, Q14, Q15, Q8, Q9, Q10, Q11 in *.
  split; [rewrite M3, M2, M1, C2, C1; reflexivity|]. split; [now rewrite K3, K2|].
  split; [repeat split; congruence|]. repeat (split; [assumption|]).
  now rewrite T13, T14, T15, T8, T9, T10, T11.
Qed.
