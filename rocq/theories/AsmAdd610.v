(** mp_add610_asm, fpadd610_asm, fpsub610_asm and mp_sub610_p2_asm give the words of the generic functions. *)
From Verif Require Import Base BaseP Params Digits DigitsP Fp Asm AsmP610 AsmP AsmRedP AsmMul434 AsmAdd434.

Local Notation P := (P610 T64).

Lemma p610x2_words : Forall word (w_px2 P).
Proof. repeat constructor; vm_compute; intuition discriminate. Qed.
Lemma p610x4_words : Forall word (w_px4 P).
Proof. repeat constructor; vm_compute; intuition discriminate. Qed.

Lemma mp_add_adds10 a b : Forall word a -> Forall word b -> mp_addfast P a b = adds 0 a b.
Proof. intros Ha Hb. unfold mp_addfast, mp_add. change (radix P) with 64. rewrite addc_loop_adds; auto. split; lia. Qed.
Lemma fpsub_adds10 a b : Forall word a -> Forall word b ->
  fpsub P a b = adds 0 (subs 0 a b) (map (fun x => Z.land x ((0 - subcy 0 a b) mod W)) (w_px2 P)).
Proof.
  intros Ha Hb. assert (B0 : bit 0) by (split; lia). unfold fpsub, masked. change (radix P) with 64. rewrite subc_loop_subs by auto.
  change (dsub 64 0 (subcy 0 a b)) with ((0 - subcy 0 a b) mod W).
  rewrite addc_loop_adds; auto using subs_words. apply masked_words; auto using p610x2_words, subcy_bit.
Qed.
Lemma fpadd_adds10 a b : Forall word a -> Forall word b ->
  fpadd P a b = let t := adds 0 a b in
    adds 0 (subs 0 t (w_px2 P)) (map (fun x => Z.land x ((0 - subcy 0 t (w_px2 P)) mod W)) (w_px2 P)).
Proof.
  intros Ha Hb. assert (B0 : bit 0) by (split; lia). unfold fpadd, masked. change (radix P) with 64.
  rewrite addc_loop_adds by auto. cbv zeta. set (t := adds 0 a b). assert (Wt : Forall word t) by apply adds_words.
  rewrite subc_loop_subs by auto using p610x2_words. set (c := subcy 0 t (w_px2 P)).
  change (dsub 64 0 c) with ((0 - c) mod W).
  rewrite addc_loop_adds; auto using subs_words. apply masked_words; auto using p610x2_words. now apply subcy_bit.
Qed.
Lemma mp_sub_p2_adds10 a b : Forall word a -> Forall word b -> mp_sub_p2 P a b = adds 0 (subs 0 a b) (w_px2 P).
Proof.
  intros Ha Hb. assert (B0 : bit 0) by (split; lia). unfold mp_sub_p2. change (radix P) with 64.
  rewrite subc_loop_subs by auto. rewrite addc_loop_adds; auto using subs_words, p610x2_words.
Qed.

(** Ten words stored at x. *)
Definition put10 (x : Z) (l : list Z) (m : Z -> Z) : Z -> Z :=
  fun y => if y =? x + 72 then nth 9 l 0 else if y =? x + 64 then nth 8 l 0 else
           if y =? x + 56 then nth 7 l 0 else if y =? x + 48 then nth 6 l 0 else if y =? x + 40 then nth 5 l 0 else
           if y =? x + 32 then nth 4 l 0 else if y =? x + 24 then nth 3 l 0 else if y =? x + 16 then nth 2 l 0 else
           if y =? x + 8 then nth 1 l 0 else if y =? x + 0 then nth 0 l 0 else m y.
Lemma put10_wat x l m m' : (forall y, m' y = put10 x l m y) -> length l = 10%nat -> wat m' x 0 10 = l.
Proof.
  intros H L. do 11 (destruct l as [|? l]; [try discriminate|]); [|discriminate].
  unfold wat. cbn [seq map]. rewrite !H. unfold put10. cbn [nth].
  repeat match goal with |- context [?a =? ?b] => destruct (Z.eqb_spec a b); try lia end. reflexivity.
Qed.
Lemma put10_only x l m m' : (forall y, m' y = put10 x l m y) -> only_at x 10 m m'.
Proof.
  intros H y Hy. rewrite H. unfold put10.
  pose proof (Hy 0%nat ltac:(lia)). pose proof (Hy 1%nat ltac:(lia)). pose proof (Hy 2%nat ltac:(lia)).
  pose proof (Hy 3%nat ltac:(lia)). pose proof (Hy 4%nat ltac:(lia)). pose proof (Hy 5%nat ltac:(lia)).
  pose proof (Hy 6%nat ltac:(lia)). pose proof (Hy 7%nat ltac:(lia)). pose proof (Hy 8%nat ltac:(lia)). pose proof (Hy 9%nat ltac:(lia)).
  repeat match goal with |- context [?a =? ?b] => destruct (Z.eqb_spec a b); [lia|] end. reflexivity.
Qed.
(** Two words stored at the end of ten before these. *)
Definition put2 (x a b : Z) (m : Z -> Z) : Z -> Z := fun y => if y =? x + 72 then b else if y =? x + 64 then a else m y.
Lemma put10_over x l a b m y : put10 x l (put2 x a b m) y = put10 x l m y.
Proof.
  unfold put10, put2.
  repeat match goal with |- context [?a =? ?b] => destruct (Z.eqb_spec a b); [reflexivity|] end. reflexivity.
Qed.
Lemma put4_2 x l a b m : put4 x l (put2 x a b m) (x + 64) = a /\ put4 x l (put2 x a b m) (x + 72) = b.
Proof.
  unfold put4, put2. split; repeat match goal with |- context [?a =? ?b] => destruct (Z.eqb_spec a b); try lia end; reflexivity.
Qed.

Definition fp_post10 (s s' : st) (v : list Z) : Prop :=
  saved s s' /\ only_at (rg s RDX) 10 (mem s) (mem s') /\ wat (mem s') (rg s RDX) 0 10 = v.
Lemma fp_post10_put s s' v : saved s s' -> length v = 10%nat ->
  (forall y, mem s' y = put10 (rg s RDX) v (mem s) y) -> fp_post10 s s' v.
Proof. intros S L H. split; auto. split; [eapply put10_only; eauto|]. eapply put10_wat; eauto. Qed.

(** ** mp_sub610_p2_asm *)
Lemma sub2_mem s y : mem (run mp_sub610_p2_asm s) y =
  put10 (rg s RDX) (adds 0 (subs 0 (wat (mem s) (rg s RDI) 0 10) (wat (mem s) (rg s RSI) 0 10)) (w_px2 P)) (mem s) y.
Proof. reflexivity. Qed.
Lemma mp_sub610_p2_ok s : let a := wat (mem s) (rg s RDI) 0 10 in let b := wat (mem s) (rg s RSI) 0 10 in
  Forall word a -> Forall word b -> fp_post10 s (run mp_sub610_p2_asm s) (mp_sub_p2 P a b).
Proof.
  intros a b Wa Wb. rewrite mp_sub_p2_adds10 by auto. apply fp_post10_put.
  - split; [reflexivity|saved6].
  - reflexivity.
  - exact (sub2_mem s).
Qed.

(** ** fpadd610_asm and fpsub610_asm *)
(** Both end in the same way: the difference u is in r8-r15, rcx and rdi, its borrow in CF; the two highest words go through the result. *)
Definition pro_fadd : list instr := firstn 42 fpadd610_asm.
Definition pro_fsub : list instr := firstn 24 fpsub610_asm.
Definition epi_fsub : list instr := skipn 24 fpsub610_asm.
Lemma fadd_split : fpadd610_asm = pro_fadd ++ epi_fsub. Proof. reflexivity. Qed.
Lemma fsub_split : fpsub610_asm = pro_fsub ++ epi_fsub. Proof. reflexivity. Qed.
Lemma epi_fsub_mem s y : let k := (0 - 0 - cf s) mod W in let t := map (fun x => Z.land x k) (w_px2 P) in let x := rg s RDX in
  let lo := adds 0 (map (rg s) [R8; R9; R10; R11]) (firstn 4 t) in
  let m := put2 x (rg s RCX) (rg s RDI) (mem s) in let m1 := put4 x lo m in
  let c := rg s RCX in let c4 := addcy 0 (map (rg s) [R8; R9; R10; R11]) (firstn 4 t) in
  mem (run epi_fsub s) y =
  put10 x (lo ++ adds ((c - c mod 256 + c4) mod 2) (map (rg s) [R12; R13; R14; R15] ++ [m1 (x + 64); m1 (x + 72)]) (skipn 4 t)) m y.
Proof. reflexivity. Qed.
Definition fsub_mid (s s1 : st) (u : list Z) (c : Z) : Prop :=
  (mem s1 = mem s /\ rg s1 RDX = rg s RDX) /\ cf s1 = c /\ map (rg s1) [R8; R9; R10; R11; R12; R13; R14; R15; RCX; RDI] = u.
Lemma fsub_mid_mem s s1 u c y : Forall word u -> bit c -> fsub_mid s s1 u c ->
  mem (run epi_fsub s1) y = put10 (rg s RDX) (adds 0 u (map (fun x => Z.land x ((0 - c) mod W)) (w_px2 P))) (mem s) y.
Proof.
  intros Wu Hc ((M1 & D1) & RC & RU). assert (B0 : bit 0) by (split; lia).
  rewrite epi_fsub_mem. cbv zeta. rewrite put10_over, M1, D1, RC. change (0 - 0 - c) with (0 - c).
  set (t := map (fun x => Z.land x ((0 - c) mod W)) (w_px2 P)) in *.
  assert (Wt : Forall word t) by (apply masked_words; auto using p610x2_words).
  destruct (put4_2 (rg s RDX) (adds 0 (map (rg s1) [R8; R9; R10; R11]) (firstn 4 t)) (rg s1 RCX) (rg s1 RDI) (mem s)) as [-> ->].
  change (map (rg s1) [R12; R13; R14; R15] ++ [rg s1 RCX; rg s1 RDI]) with (skipn 4 (map (rg s1) [R8; R9; R10; R11; R12; R13; R14; R15; RCX; RDI])).
  change (map (rg s1) [R8; R9; R10; R11]) with (firstn 4 (map (rg s1) [R8; R9; R10; R11; R12; R13; R14; R15; RCX; RDI])).
  assert (Lu : length u = 10%nat) by (rewrite <- RU; reflexivity). rewrite RU.
  rewrite setc_bt by (apply addcy_bit; auto using Forall_firstn).
  rewrite <- adds_app; [now rewrite !firstn_skipn|]. rewrite !firstn_length, Lu. reflexivity.
Qed.
Lemma pro_fsub_regs s : let a := wat (mem s) (rg s RDI) 0 10 in let b := wat (mem s) (rg s RSI) 0 10 in
  fsub_mid s (run pro_fsub s) (subs 0 a b) (subcy 0 a b).
Proof. repeat split; reflexivity. Qed.
Lemma pro_fadd_regs s : let a := wat (mem s) (rg s RDI) 0 10 in let b := wat (mem s) (rg s RSI) 0 10 in let t := adds 0 a b in
  fsub_mid s (run pro_fadd s) (subs 0 t (w_px2 P)) (subcy 0 t (w_px2 P)).
Proof. repeat split; reflexivity. Qed.
Lemma fpsub610_ok s : let a := wat (mem s) (rg s RDI) 0 10 in let b := wat (mem s) (rg s RSI) 0 10 in
  Forall word a -> Forall word b -> fp_post10 s (run fpsub610_asm s) (fpsub P a b).
Proof.
  intros a b Wa Wb. assert (B0 : bit 0) by (split; lia). rewrite fpsub_adds10 by auto. apply fp_post10_put.
  - split; [reflexivity|saved6].
  - reflexivity.
  - intros y. pose proof (pro_fsub_regs s) as H. cbv zeta in H. fold a b in H.
    rewrite fsub_split, run_app. apply (fsub_mid_mem s _ _ (subcy 0 a b)); auto using subs_words, subcy_bit.
Qed.
Lemma fpadd610_ok s : let a := wat (mem s) (rg s RDI) 0 10 in let b := wat (mem s) (rg s RSI) 0 10 in
  Forall word a -> Forall word b -> fp_post10 s (run fpadd610_asm s) (fpadd P a b).
Proof.
  intros a b Wa Wb. assert (B0 : bit 0) by (split; lia). rewrite fpadd_adds10 by auto. cbv zeta. apply fp_post10_put.
  - split; [reflexivity|saved6].
  - reflexivity.
  - intros y. pose proof (pro_fadd_regs s) as H. cbv zeta in H. fold a b in H.
    rewrite fadd_split, run_app. apply (fsub_mid_mem s _ _ (subcy 0 (adds 0 a b) (w_px2 P))); auto using subs_words, subcy_bit.
Qed.

(** ** mp_add610_asm *)
(** The words are those of another number or do not overlap it. *)
Definition apart10 (x y : Z) : Prop := x = y \/ x + 80 <= y \/ y + 80 <= x.
Definition put5 (x : Z) (l : list Z) (m : Z -> Z) : Z -> Z :=
  fun y => if y =? x + 32 then nth 4 l 0 else if y =? x + 24 then nth 3 l 0 else if y =? x + 16 then nth 2 l 0 else
           if y =? x + 8 then nth 1 l 0 else if y =? x + 0 then nth 0 l 0 else m y.
Lemma put5_out x y i l m : apart10 x y -> 40 <= i <= 72 -> put5 x l m (y + i) = m (y + i).
Proof.
  intros H Hi. unfold put5. unfold apart10 in H.
  repeat match goal with |- context [?a =? ?b] => destruct (Z.eqb_spec a b); [exfalso; lia|] end. reflexivity.
Qed.
Definition pro_madd : list instr := firstn 10 mp_add610_asm.
Definition epi_madd : list instr := skipn 10 mp_add610_asm.
Lemma madd_split : mp_add610_asm = pro_madd ++ epi_madd. Proof. reflexivity. Qed.
Lemma epi_madd_mem s y : let lo := map (rg s) [R8; R9; R10; R11; RAX] in let m := put5 (rg s RDX) lo (mem s) in
  let hi x := [m (x + 40); m (x + 48); m (x + 56); m (x + 64); m (x + 72)] in
  mem (run epi_madd s) y = put10 (rg s RDX) (lo ++ adds (cf s) (hi (rg s RDI)) (hi (rg s RSI))) (mem s) y.
Proof. reflexivity. Qed.
Lemma pro_madd_regs s : let a := wat (mem s) (rg s RDI) 0 10 in let b := wat (mem s) (rg s RSI) 0 10 in
  let s1 := run pro_madd s in
  (mem s1 = mem s /\ rg s1 RDX = rg s RDX /\ rg s1 RDI = rg s RDI /\ rg s1 RSI = rg s RSI) /\
  cf s1 = addcy 0 (firstn 5 a) (firstn 5 b) /\ map (rg s1) [R8; R9; R10; R11; RAX] = adds 0 (firstn 5 a) (firstn 5 b).
Proof. repeat split; reflexivity. Qed.
Lemma mp_add610_ok s : let a := wat (mem s) (rg s RDI) 0 10 in let b := wat (mem s) (rg s RSI) 0 10 in
  Forall word a -> Forall word b -> apart10 (rg s RDX) (rg s RDI) -> apart10 (rg s RDX) (rg s RSI) ->
  fp_post10 s (run mp_add610_asm s) (mp_addfast P a b).
Proof.
  intros a b Wa Wb Xa Xb. rewrite mp_add_adds10 by auto. apply fp_post10_put.
  - split; [reflexivity|saved6].
  - reflexivity.
  - intros y. rewrite madd_split, run_app, epi_madd_mem. cbv zeta.
    destruct (pro_madd_regs s) as ((-> & -> & -> & ->) & -> & ->). rewrite !put5_out by (auto; lia). fold a b.
    change [mem s (rg s RDI + 40); mem s (rg s RDI + 48); mem s (rg s RDI + 56); mem s (rg s RDI + 64); mem s (rg s RDI + 72)] with (skipn 5 a).
    change [mem s (rg s RSI + 40); mem s (rg s RSI + 48); mem s (rg s RSI + 56); mem s (rg s RSI + 64); mem s (rg s RSI + 72)] with (skipn 5 b).
    rewrite <- adds_app by reflexivity. now rewrite !firstn_skipn.
Qed.
