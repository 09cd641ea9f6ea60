(** fpmul610_asm: the result, and the words of the generic Montgomery multiplication. *)
From Coq Require Import Znumtheory.
From Verif Require Import Base BaseP Params Wf Digits DigitsP Fp FpP Asm AsmP610 AsmM610 AsmP AsmRedP AsmRed3 AsmMul434 AsmAdd434 AsmRun434 AsmAdd610
  AsmMul610 AsmMulQ610 AsmMulR610.

Local Notation P := (P610 T64).

Lemma last_inv m x y z K s acc : apart10 z x -> inv m x y z K zs0 s acc ->
  let s' := run (mulc (mB RCX 0) 72 zs0 ++ redc (tl zs0)) s in
  exists c0 c1 c2 k0 k1 k2 k3, mem s' = three z c0 c1 c2 m /\ rg s' RCX = z /\ stk s' = k0 :: k1 :: k2 :: k3 :: K /\
  rnd hi610 3 (wat m x 0 10) 2 (m (y + (0 + 72))) acc = c0 :: c1 :: c2 :: map (rg s') (tl zs0).
Proof.
  intros HA (Em & Ex & Ey & Ez & a0 & a1 & a2 & a3 & Ek & Ea). cbv zeta. rewrite run_app, parts.
  assert (HA' : apart10 (rg s RCX) (rg s RDI)) by (rewrite Ez, Ex; exact HA).
  assert (Hz : In zs0 rots8) by (cbn; tauto).
  pose proof (part1_last s a0 a1 a2 a3 K Ek HA') as A. cbv zeta in A.
  generalize dependent (run (part1 (mB RCX 0) 72 zs0) s). intros s1 (M1 & K1 & (I1 & S1 & C1) & D1 & B1 & X1 & F1 & O1 & R1).
  pose proof (proj1 (Forall_forall _ _) (part2_run (mB RCX 0) 72) zs0 Hz s1) as B. cbv zeta in B.
  generalize dependent (run (part2 (mB RCX 0) 72 zs0) s1). intros s2 (M2 & K2 & (I2 & S2 & C2) & R2).
  pose proof (proj1 (Forall_forall _ _) redc_run zs0 Hz s2) as C. cbv zeta in C.
  generalize dependent (run (redc (tl zs0)) s2). intros s3 (M3 & K3 & (I3 & S3 & C3) & R3).
  assert (E : forall i, 40 <= i -> i <= 72 -> at_ s1 i = m (x + (0 + i))).
  { intros i Hi Hi'. unfold at_. rewrite M1, I1, Em, Ex, Ez. unfold three. clear - HA Hi Hi'. unfold apart10 in HA.
    rewrite !st1_ne by lia. reflexivity. }
  rewrite (E 40), (E 48), (E 56), (E 64), (E 72) in R2 by (clear; lia).
  do 7 eexists. split; [rewrite M3, M2, M1, Ez, Em; reflexivity|]. split; [congruence|]. split; [rewrite K3, K2; exact K1|].
  rewrite R3, K2, K1. unfold rnd. rewrite Ea. 
  cbn [zs0 map tl removelast app nth last skipn] in *. rewrite Z.lxor_nilpotent in R1.
  injection R1 as Q1 Q2 Q3 Q4 Q5 Q6 Q7. rewrite wat10.
  unfold at_ in *. rewrite Em, Ex, Ey in *.
  rewrite Q1, Q2, Q3, Q4, Q5, Q6, Q7, B1, X1, F1, O1, D1 in R2.
  erewrite join; [|reflexivity|reflexivity|reflexivity|exact R2]. reflexivity.
Qed.

(** ** fpmul610_asm, lines 1044-1097 *)
Definition pro_mul10 : list instr := firstn 34 fpmul610_asm.
Definition epi_mul10 : list instr := skipn (length fpmul610_asm - 14) fpmul610_asm.
Lemma fpmul610_split : fpmul610_asm = pro_mul10 ++ redc (removelast zs0) ++ rcode 8 8 zs0 ++ (mulc (mB RCX 0) 72 zs0 ++ redc (tl zs0)) ++ epi_mul10.
Proof. reflexivity. Qed.
Definition K610 (s : st) : list Z := rg s RBP :: rg s RBX :: rg s R15 :: rg s R14 :: rg s R13 :: rg s R12 :: stk s.
Lemma pro_mul_ok10 s : let s1 := run pro_mul10 s in let w := mul_row (mem s (rg s RSI + 0)) (wat (mem s) (rg s RDI) 0 10) in
  mem s1 = mem s /\ rg s1 RDI = rg s RDI /\ rg s1 RSI = rg s RSI /\ rg s1 RCX = rg s RDX /\
  exists w0 w1 w2 w3, stk s1 = w1 :: w2 :: w3 :: w0 :: K610 s /\ w = w0 :: w1 :: w2 :: w3 :: map (rg s1) (removelast zs0).
Proof.
  do 4 (split; [reflexivity|]). exists (nth 0 (mul_row (mem s (rg s RSI + 0)) (wat (mem s) (rg s RDI) 0 10)) 0).
  do 3 eexists. split.
  - unfold pro_mul10, fpmul610_asm, K610. cbn [firstn app]. sim_cbn. rewrite ?Z.lxor_nilpotent. reflexivity.
  - unfold pro_mul10, fpmul610_asm. cbn [firstn app]. sim_cbn. rewrite ?Z.lxor_nilpotent. reflexivity.
Qed.
Lemma epi_mul_ok10 s s2 m c0 c1 c2 k0 k1 k2 k3 : mem s2 = three (rg s RDX) c0 c1 c2 m -> rg s2 RCX = rg s RDX ->
  stk s2 = k0 :: k1 :: k2 :: k3 :: K610 s -> let s' := run epi_mul10 s2 in
  saved s s' /\ only_at (rg s RDX) 10 m (mem s') /\ wat (mem s') (rg s RDX) 0 10 = c0 :: c1 :: c2 :: map (rg s2) (tl zs0).
Proof.
  intros M2 RC2 K2 s'.
  assert (PM : forall y, mem s' y = put10 (rg s RDX) (c0 :: c1 :: c2 :: map (rg s2) (tl zs0)) m y).
  { intros y. transitivity (put10 (rg s2 RCX) (c0 :: c1 :: c2 :: map (rg s2) (tl zs0)) (mem s2) y).
    - assert (X : forall d, mem s2 (rg s RDX + d) = three (rg s RDX) c0 c1 c2 m (rg s RDX + d)) by (intros d; now rewrite M2).
      unfold s'. destruct s2 as [g c o m2 k l]. cbn [rg mem stk] in *. subst k. rewrite RC2.
      unfold put10. cbn. rewrite RC2.
      repeat match goal with |- context [y =? ?b] => destruct (Z.eqb_spec y b) as [->|]; [try reflexivity|] end; try reflexivity;
      rewrite X; unfold three, st1; cbn [Z.add];
      repeat match goal with |- context [?a =? ?b] => destruct (Z.eqb_spec a b); try (exfalso; lia) end; reflexivity.
    - rewrite RC2, M2. unfold put10, three, st1. cbn [Z.add].
      repeat match goal with |- context [y =? ?b] => destruct (Z.eqb_spec y b); [reflexivity|] end. reflexivity. }
  split; [|split].
  - split; [now cbn; rewrite K2|].
    intros r Hr. cbn in Hr. destruct Hr as [<-|[<-|[<-|[<-|[<-|[<-|[]]]]]]]; cbn; now rewrite K2.
  - eapply put10_only; eauto.
  - now rewrite (put10_wat _ _ _ _ PM) by reflexivity.
Qed.

Definition mul_post10 (a b c : list Z) : Prop :=
  Forall word c /\ length c = 10%nat /\ 0 <= valB W c < valB W a + p610 /\
  exists m, 0 <= m < W ^ 10 /\ W ^ 10 * valB W c = valB W a * valB W b + m * p610.
Lemma fpmul610_ok s : let a := wat (mem s) (rg s RDI) 0 10 in let b := wat (mem s) (rg s RSI) 0 10 in
  Forall word a -> Forall word b -> apart10 (rg s RDX) (rg s RDI) -> valB W a + p610 <= W ^ 10 ->
  let s' := run fpmul610_asm s in
  saved s s' /\ only_at (rg s RDX) 10 (mem s) (mem s') /\ mul_post10 a b (wat (mem s') (rg s RDX) 0 10).
Proof.
  intros a b Wa Wb HX HA. cbv zeta. rewrite fpmul610_split, !run_app.
  pose proof (pro_mul_ok10 s) as A. cbv zeta in A. fold a in A.
  generalize dependent (run pro_mul10 s). intros s1 (M1 & I1 & S1 & C1 & w0 & w1 & w2 & w3 & K1 & E1).
  assert (Hz7 : In (rots 7 zs0) rots8) by (cbn; tauto). assert (Hz : In zs0 rots8) by (cbn; tauto).
  pose proof (redc_inv (mem s) (rg s RDI) (rg s RSI) (rg s RDX) (K610 s) (rots 7 zs0) s1 w0 w1 w2 w3 Hz7 M1 I1 S1 C1 K1) as B.
  change (rot (rots 7 zs0)) with zs0 in B. change (tl (rots 7 zs0)) with (removelast zs0) in B. rewrite <- E1 in B.
  generalize dependent (run (redc (removelast zs0)) s1). intros s2 B.
  apply (rcode_inv _ _ _ _ _ 8 zs0 8) in B; [|exact Hz]. change (rots 8 zs0) with zs0 in B. fold a in B.
  generalize dependent (run (rcode 8 8 zs0) s2). intros s3 B.
  set (bs := map (fun i => mem s (rg s RSI + (0 + (8 + 8 * Z.of_nat i)))) (seq 0 8)) in *.
  pose proof (last_inv _ _ _ _ _ _ _ HX B) as C. cbv zeta in C. fold a in C. rewrite run_app in C.
  generalize dependent (run (redc (tl zs0)) (run (mulc (mB RCX 0) 72 zs0) s3)).
  intros s4 (c0 & c1 & c2 & k0 & k1 & k2 & k3 & M4 & R4 & K4 & E4).
  destruct (epi_mul_ok10 s s4 (mem s) c0 c1 c2 k0 k1 k2 k3 M4 R4 K4) as (X & Y & Q). split; auto. split; auto.
  rewrite Q, <- E4. clear - Wa Wb HA.
  assert (EB : b = mem s (rg s RSI + 0) :: bs ++ [mem s (rg s RSI + (0 + 72))]) by reflexivity.
  pose proof (pmont_ok hi610 3 p610 hi610_word ltac:(discriminate) p610_1 p610_pos a Wa ltac:(discriminate) ltac:(reflexivity) HA 2
    (mem s (rg s RSI + 0)) (bs ++ [mem s (rg s RSI + (0 + 72))])) as H.
  rewrite <- EB in H. specialize (H Wb). cbv zeta in H.
  assert (ER : forall n l v acc, rnds hi610 3 a n (l ++ [v]) acc = rnd hi610 3 a n v (rnds hi610 3 a n l acc)).
  { intros n l v. induction l as [|q l IH]; intros acc; cbn [app rnds]; auto. }
  rewrite ER in H. exact H.
Qed.

(** The words of the generic function. *)
Lemma mont_unique10 v v' x m m' : 0 <= m < W ^ 10 -> 0 <= m' < W ^ 10 ->
  W ^ 10 * v = x + m * p610 -> W ^ 10 * v' = x + m' * p610 -> v = v'.
Proof.
  intros Hm Hm' E E'.
  assert (D : (W ^ 10 | p610 * (m - m'))) by (exists (v - v'); lia).
  apply Gauss in D; [|apply Zgcd_1_rel_prime; vm_compute; reflexivity].
  destruct D as [q Hq]. assert (q = 0).
  { assert (- W ^ 10 < q * W ^ 10 < W ^ 10) by lia. assert (0 < W ^ 10) by reflexivity. nia. }
  subst q. assert (m = m') by lia. subst m'. assert (0 < W ^ 10) by reflexivity. nia.
Qed.
Lemma ok_words10 a : length a = 10%nat -> Forall word a -> Wf.ok P a.
Proof. intros L H. split; auto. Qed.
Lemma mont_eq10 a b c m : length a = 10%nat -> length b = 10%nat -> Forall word a -> Forall word b ->
  valB W a * valB W b < W ^ 10 * p610 -> Forall word c -> length c = 10%nat -> 0 <= m < W ^ 10 ->
  W ^ 10 * valB W c = valB W a * valB W b + m * p610 -> c = fpmul_mont P a b.
Proof.
  intros La Lb Wa Wb HB Wc Lc Hm E.
  destruct (fpmul_mont_val P (Wf_P610 T64) a b (ok_words10 a La Wa) (ok_words10 b Lb Wb)) as ((Lo & Do) & _ & q & Hq & Eq).
  { exact HB. }
  apply (valB_inj W); [reflexivity|exact Wc|exact Do| |].
  - rewrite Lc, Lo. reflexivity.
  - exact (mont_unique10 _ _ _ m q Hm Hq E Eq).
Qed.
Lemma fpmul610_eq s : let a := wat (mem s) (rg s RDI) 0 10 in let b := wat (mem s) (rg s RSI) 0 10 in
  Forall word a -> Forall word b -> apart10 (rg s RDX) (rg s RDI) -> valB W a + p610 <= W ^ 10 -> valB W a * valB W b < W ^ 10 * p610 ->
  fp_post10 s (run fpmul610_asm s) (fpmul_mont P a b).
Proof.
  intros a b Wa Wb HX Ha Hab. destruct (fpmul610_ok s Wa Wb HX Ha) as (S & O & Wc & Lc & _ & m & Hm & E). split; auto. split; auto.
  eapply mont_eq10; eauto; apply wat_length.
Qed.
Lemma fpmul610_val s : let a := wat (mem s) (rg s RDI) 0 10 in let b := wat (mem s) (rg s RSI) 0 10 in
  Forall word a -> Forall word b -> apart10 (rg s RDX) (rg s RDI) -> valB W a + p610 <= W ^ 10 ->
  let s' := run fpmul610_asm s in let r := wat (mem s') (rg s RDX) 0 10 in
  (saved s s' /\ only_at (rg s RDX) 10 (mem s) (mem s')) /\
  Forall word r /\ 0 <= valB W r < valB W a + p610 /\ (W ^ 10 * valB W r) mod p610 = (valB W a * valB W b) mod p610.
Proof.
  intros a b Wa Wb HX Ha. cbv zeta. destruct (fpmul610_ok s Wa Wb HX Ha) as (S & O & Wc & Lc & V & m & Hm & E).
  split; auto. split; auto. split; auto. fold a b in E. rewrite E. apply Z_mod_plus_full.
Qed.
Definition one10 : list Z := [1; 0; 0; 0; 0; 0; 0; 0; 0; 0].
Lemma run_R2_610 : let r := wat (mem (run fpmul610_asm (start (w_R2 P) one10))) 3000 0 10 in (W ^ 10 * valB W r) mod p610 = (W ^ 10 * W ^ 10) mod p610.
Proof.
  pose (s := start (w_R2 P) one10).
  assert (E1 : wat (mem s) (rg s RDI) 0 10 = w_R2 P) by (vm_compute; reflexivity).
  assert (E2 : wat (mem s) (rg s RSI) 0 10 = one10) by (vm_compute; reflexivity).
  pose proof (fpmul610_val s) as H. cbv zeta in H. rewrite E1, E2 in H.
  destruct H as (_ & _ & _ & H).
  - repeat (apply Forall_cons; [split; [discriminate|reflexivity]|]). apply Forall_nil.
  - repeat (apply Forall_cons; [split; [discriminate|reflexivity]|]). apply Forall_nil.
  - unfold apart10. change (rg s RDX) with 3000. change (rg s RDI) with 1000. lia.
  - vm_compute. congruence.
  - cbv zeta. change 3000 with (rg s RDX). fold s. etransitivity; [exact H|vm_compute; reflexivity].
Qed.
