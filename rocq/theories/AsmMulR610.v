(** fpmul610_asm, continued: the rounds and the result. *)
From Verif Require Import Base BaseP Params Digits Fp FpP Asm AsmP610 AsmM610 AsmP AsmRedP AsmRed3 AsmMul434 AsmAdd434 AsmAdd610 AsmMul610 AsmMulQ610.

Local Notation P := (P610 T64).

Definition inv (m : Z -> Z) (x y z : Z) (K : list Z) (zs : list reg) (s : st) (acc : list Z) : Prop :=
  mem s = m /\ rg s RDI = x /\ rg s RSI = y /\ rg s RCX = z /\
  exists a0 a1 a2 a3, stk s = a0 :: a1 :: a2 :: a3 :: K /\ acc = a0 :: a1 :: a2 :: map (rg s) (removelast zs).
Lemma rots8_form zs : In zs rots8 -> exists r0 r1 r2 r3 r4 r5 r6 r7, zs = [r0; r1; r2; r3; r4; r5; r6; r7].
Proof. intros H. cbn in H. repeat (destruct H as [<-|H]; [repeat eexists|]). destruct H. Qed.

(** What a row leaves in the registers: the words from the fourth on. *)
Lemma join d a0 a1 a2 z0 z1 r m0 m1 m2 m3 m4 ms w L v u z2 : w = lo4 d a0 a1 a2 z0 z1 m0 m1 m2 m3 ->
  v = nth 6 w 0 + (d * m4) mod W + nth 4 w 0 -> u = z2 + d * m4 / W + nth 5 w 0 ->
  L = v mod W :: prow 0 d (v / W) (u / W) (u mod W :: r) ms ->
  prow1 2 d (a0 :: a1 :: a2 :: z0 :: z1 :: z2 :: r) (m0 :: m1 :: m2 :: m3 :: m4 :: ms) =
  nth 0 w 0 :: nth 1 w 0 :: nth 2 w 0 :: nth 3 w 0 :: L.
Proof. intros -> -> -> ->. reflexivity. Qed.

Lemma wat10 m x : wat m x 0 10 = [m (x + (0 + 0)); m (x + (0 + 8)); m (x + (0 + 16)); m (x + (0 + 24)); m (x + (0 + 32)); m (x + (0 + 40));
  m (x + (0 + 48)); m (x + (0 + 56)); m (x + (0 + 64)); m (x + (0 + 72))].
Proof. reflexivity. Qed.

Lemma mulc_inv m x y z K zs k s acc : In zs rots8 -> inv m x y z K zs s acc ->
  let s' := run (mulc (mS 0) k zs) s in let w := prow1 2 (m (y + (0 + k))) (acc ++ [0]) (wat m x 0 10) in
  mem s' = m /\ rg s' RDI = x /\ rg s' RSI = y /\ rg s' RCX = z /\
  exists w0 w1 w2 w3, stk s' = w1 :: w2 :: w3 :: w0 :: K /\ w = w0 :: w1 :: w2 :: w3 :: map (rg s') (tl zs).
Proof.
  intros Hz (Em & Ex & Ey & Ez & a0 & a1 & a2 & a3 & Ek & Ea). cbv zeta. rewrite parts.
  pose proof (proj1 (Forall_forall _ _) part1_run zs Hz k s a0 a1 a2 a3 K Ek) as A. cbv zeta in A.
  generalize dependent (run (part1 (mS 0) k zs) s). intros s1 (M1 & K1 & (I1 & S1 & C1) & D1 & B1 & X1 & F1 & O1 & R1).
  pose proof (proj1 (Forall_forall _ _) (part2_run (mS 0) k) zs Hz s1) as B. cbv zeta in B.
  generalize dependent (run (part2 (mS 0) k zs) s1). intros s2 (M2 & K2 & (I2 & S2 & C2) & R2).
  split; [congruence|]. split; [congruence|]. split; [congruence|]. split; [congruence|].
  do 4 eexists. split; [rewrite K2; exact K1|].
  destruct (rots8_form zs Hz) as (r0 & r1 & r2 & r3 & r4 & r5 & r6 & r7 & ->).
  cbn [map tl removelast app nth last skipn] in *. rewrite Z.lxor_nilpotent in R1.
  injection R1 as Q1 Q2 Q3 Q4 Q5 Q6 Q7. rewrite Ea. cbn [app]. rewrite wat10.
  unfold at_ in *. rewrite I1, M1, Em, Ex in R2. rewrite Em, Ex, Ey in *.
  rewrite Q1, Q2, Q3, Q4, Q5, Q6, Q7, B1, X1, F1, O1, D1 in R2.
  eapply join; [reflexivity|reflexivity|reflexivity|exact R2].
Qed.
Lemma rot_in8 zs : In zs rots8 -> In (rot zs) rots8.
Proof. intros H. cbn in H. repeat (destruct H as [<-|H]; [cbn; tauto|]). destruct H. Qed.
Lemma rot_form zs : In zs rots8 -> removelast (rot zs) = tl zs.
Proof. intros H. destruct zs; auto. apply removelast_rot. Qed.

Lemma redc_inv m x y z K zs s w0 w1 w2 w3 : In zs rots8 ->
  mem s = m -> rg s RDI = x -> rg s RSI = y -> rg s RCX = z -> stk s = w1 :: w2 :: w3 :: w0 :: K ->
  inv m x y z K (rot zs) (run (redc (tl zs)) s) (pred_ hi610 3 (w0 :: w1 :: w2 :: w3 :: map (rg s) (tl zs))).
Proof.
  intros Hz Em Ex Ey Ez Ek. pose proof (proj1 (Forall_forall _ _) redc_run zs Hz s) as A. cbv zeta in A.
  generalize dependent (run (redc (tl zs)) s). intros s' (M & K' & (I & S & C) & R). unfold inv.
  split; [congruence|]. split; [congruence|]. split; [congruence|]. split; [congruence|].
  exists w1, w2, w3, w0. split; [congruence|]. rewrite rot_form, R, Ek by auto. reflexivity.
Qed.
Lemma round_inv m x y z K zs k s acc : In zs rots8 -> inv m x y z K zs s acc ->
  inv m x y z K (rot zs) (run (mulc (mS 0) k zs ++ redc (tl zs)) s) (rnd hi610 3 (wat m x 0 10) 2 (m (y + (0 + k))) acc).
Proof.
  intros Hz H. destruct (mulc_inv m x y z K zs k s acc Hz H) as (A & B & C & D & w0 & w1 & w2 & w3 & Kk & E). unfold rnd.
  rewrite E, run_app. now apply redc_inv.
Qed.
Lemma rcode_inv m x y z K n : forall zs k s acc, In zs rots8 -> inv m x y z K zs s acc ->
  inv m x y z K (rots n zs) (run (rcode k n zs) s)
    (rnds hi610 3 (wat m x 0 10) 2 (map (fun i => m (y + (0 + (k + 8 * Z.of_nat i)))) (seq 0 n)) acc).
Proof.
  induction n as [|n IH]; intros zs k s acc Hz H; [exact H|]. cbn [rcode rots seq map rnds].
  rewrite app_assoc, run_app. rewrite <- seq_shift, map_map.
  erewrite map_ext; [apply (IH (rot zs) (k + 8))|].
  - now apply rot_in8.
  - replace (k + 8 * Z.of_nat 0) with k by lia. now apply round_inv.
  - intros i. cbn beta. replace (k + 8 + 8 * Z.of_nat i) with (k + 8 * Z.of_nat (S i)) by lia. reflexivity.
Qed.
