(** mp_add503_asm, fpadd503_asm, fpsub503_asm and mp_sub503_p2_asm give the words of the generic functions. *)
From Verif Require Import Base BaseP Params Digits DigitsP Fp Asm AsmP503 AsmP AsmRedP AsmMul434 AsmAdd434 AsmMul503.

Local Notation P := (P503 T64).

Lemma p503x2_words : Forall word (w_px2 P).
Proof. repeat constructor; vm_compute; intuition discriminate. Qed.
Lemma p503x4_words : Forall word (w_px4 P).
Proof. repeat constructor; vm_compute; intuition discriminate. Qed.

Lemma mp_add_adds8 a b : Forall word a -> Forall word b -> mp_addfast P a b = adds 0 a b.
Proof. intros Ha Hb. unfold mp_addfast, mp_add. change (radix P) with 64. rewrite addc_loop_adds; auto. split; lia. Qed.
Lemma fpsub_adds8 a b : Forall word a -> Forall word b ->
  fpsub P a b = adds 0 (subs 0 a b) (map (fun x => Z.land x ((0 - subcy 0 a b) mod W)) (w_px2 P)).
Proof.
  intros Ha Hb. assert (B0 : bit 0) by (split; lia). unfold fpsub, masked. change (radix P) with 64. rewrite subc_loop_subs by auto.
  change (dsub 64 0 (subcy 0 a b)) with ((0 - subcy 0 a b) mod W).
  rewrite addc_loop_adds; auto using subs_words. apply masked_words; auto using p503x2_words, subcy_bit.
Qed.
Lemma fpadd_adds8 a b : Forall word a -> Forall word b ->
  fpadd P a b = let t := adds 0 a b in
    adds 0 (subs 0 t (w_px2 P)) (map (fun x => Z.land x ((0 - subcy 0 t (w_px2 P)) mod W)) (w_px2 P)).
Proof.
  intros Ha Hb. assert (B0 : bit 0) by (split; lia). unfold fpadd, masked. change (radix P) with 64.
  rewrite addc_loop_adds by auto. cbv zeta. set (t := adds 0 a b). assert (Wt : Forall word t) by apply adds_words.
  rewrite subc_loop_subs by auto using p503x2_words. set (c := subcy 0 t (w_px2 P)).
  change (dsub 64 0 c) with ((0 - c) mod W).
  rewrite addc_loop_adds; auto using subs_words. apply masked_words; auto using p503x2_words. now apply subcy_bit.
Qed.
Lemma mp_sub_p2_adds8 a b : Forall word a -> Forall word b -> mp_sub_p2 P a b = adds 0 (subs 0 a b) (w_px2 P).
Proof.
  intros Ha Hb. assert (B0 : bit 0) by (split; lia). unfold mp_sub_p2. change (radix P) with 64.
  rewrite subc_loop_subs by auto. rewrite addc_loop_adds; auto using subs_words, p503x2_words.
Qed.

Definition fp_post8 (s s' : st) (v : list Z) : Prop :=
  saved s s' /\ only_at (rg s RDX) 8 (mem s) (mem s') /\ wat (mem s') (rg s RDX) 0 8 = v.
Lemma fp_post8_put s s' v : saved s s' -> length v = 8%nat ->
  (forall y, mem s' y = put8 (rg s RDX) v (mem s) y) -> fp_post8 s s' v.
Proof. intros S L H. split; auto. split; [eapply put8_only; eauto|]. eapply put8_wat; eauto. Qed.

(** ** mp_sub503_p2_asm *)
Definition pro_sub2 : list instr := firstn 34 mp_sub503_p2_asm.
Definition epi_sub2 : list instr := skipn 34 mp_sub503_p2_asm.
Lemma pro_sub2_regs s : map (rg (run pro_sub2 s)) [R8; R9; R10; R11; R12; R13; R14; RCX] =
  adds 0 (subs 0 (wat (mem s) (rg s RDI) 0 8) (wat (mem s) (rg s RSI) 0 8)) (w_px2 P).
Proof. reflexivity. Qed.
Lemma epi_sub2_mem s y : mem (run epi_sub2 s) y =
  put8 (rg s RDX) (map (rg s) [R8; R9; R10; R11; R12; R13; R14; RCX]) (mem s) y.
Proof. reflexivity. Qed.
Lemma sub2_split : mp_sub503_p2_asm = pro_sub2 ++ epi_sub2. Proof. reflexivity. Qed.
Lemma pro_sub2_fr s : mem (run pro_sub2 s) = mem s /\ rg (run pro_sub2 s) RDX = rg s RDX.
Proof. split; reflexivity. Qed.
Lemma mp_sub503_p2_ok s : let a := wat (mem s) (rg s RDI) 0 8 in let b := wat (mem s) (rg s RSI) 0 8 in
  Forall word a -> Forall word b -> fp_post8 s (run mp_sub503_p2_asm s) (mp_sub_p2 P a b).
Proof.
  intros a b Wa Wb. rewrite mp_sub_p2_adds8 by auto. apply fp_post8_put.
  - split; [reflexivity|saved6].
  - reflexivity.
  - intros y. unfold a, b. rewrite <- pro_sub2_regs, sub2_split, run_app, epi_sub2_mem.
    destruct (pro_sub2_fr s) as [-> ->]. reflexivity.
Qed.

(** ** fpadd503_asm and fpsub503_asm *)
(** Both end in the same way: the low words are stored, the carry is kept in cl, the high words are added. *)
Definition pro_fadd : list instr := firstn 47 fpadd503_asm.
Definition pro_fsub : list instr := firstn 32 fpsub503_asm.
Definition epi_fsub : list instr := skipn 32 fpsub503_asm.
Lemma fadd_split : fpadd503_asm = pro_fadd ++ epi_fsub. Proof. reflexivity. Qed.
Lemma fsub_split : fpsub503_asm = pro_fsub ++ epi_fsub. Proof. reflexivity. Qed.
Lemma epi_fsub_mem s y : let x := rg s RCX in
  mem (run epi_fsub s) y =
  put8 (rg s RDX) (map (rg s) [R8; R9; R10; R11] ++
    adds ((x - x mod 256 + cf s) mod 2) (map (rg s) [R12; R13; R14; R15]) (map (fun x => Z.land x (rg s RAX)) (skipn 4 (w_px2 P))))
    (mem s) y.
Proof. reflexivity. Qed.
(** What the last part needs of the state before it: u is added to the masked 2p. *)
Definition fsub_mid (s s1 : st) (u : list Z) (k : Z) : Prop :=
  let t := map (fun x => Z.land x k) (w_px2 P) in
  (mem s1 = mem s /\ rg s1 RDX = rg s RDX) /\
  rg s1 RAX = k /\ cf s1 = addcy 0 (firstn 4 u) (firstn 4 t) /\
  map (rg s1) [R8; R9; R10; R11] = adds 0 (firstn 4 u) (firstn 4 t) /\ map (rg s1) [R12; R13; R14; R15] = skipn 4 u.
Lemma fsub_mid_mem s s1 u c y : Forall word u -> length u = 8%nat -> bit c -> fsub_mid s s1 u ((0 - c) mod W) ->
  mem (run epi_fsub s1) y = put8 (rg s RDX) (adds 0 u (map (fun x => Z.land x ((0 - c) mod W)) (w_px2 P))) (mem s) y.
Proof.
  intros Wu Lu Hc ((M1 & D1) & RA & RC & R1 & R2). assert (B0 : bit 0) by (split; lia).
  rewrite epi_fsub_mem, M1, D1, RA, RC, R1, R2.
  set (t := map (fun x => Z.land x ((0 - c) mod W)) (w_px2 P)) in *.
  change (map (fun x => Z.land x ((0 - c) mod W)) (skipn 4 (w_px2 P))) with (skipn 4 t).
  assert (Wt : Forall word t) by (apply masked_words; auto using p503x2_words).
  rewrite setc_bt by (apply addcy_bit; auto using Forall_firstn).
  rewrite <- adds_app; [now rewrite !firstn_skipn|]. rewrite !firstn_length, Lu. reflexivity.
Qed.
Lemma pro_fsub_regs s : let a := wat (mem s) (rg s RDI) 0 8 in let b := wat (mem s) (rg s RSI) 0 8 in
  fsub_mid s (run pro_fsub s) (subs 0 a b) ((Z.lxor (rg s RAX) (rg s RAX) - 0 - subcy 0 a b) mod W).
Proof. repeat split; reflexivity. Qed.
Lemma pro_fadd_regs s : let a := wat (mem s) (rg s RDI) 0 8 in let b := wat (mem s) (rg s RSI) 0 8 in let t := adds 0 a b in
  fsub_mid s (run pro_fadd s) (subs 0 t (w_px2 P)) ((Z.lxor (rg s RAX) (rg s RAX) - 0 - subcy 0 t (w_px2 P)) mod W).
Proof. repeat split; reflexivity. Qed.
Lemma fpsub503_ok s : let a := wat (mem s) (rg s RDI) 0 8 in let b := wat (mem s) (rg s RSI) 0 8 in
  Forall word a -> Forall word b -> fp_post8 s (run fpsub503_asm s) (fpsub P a b).
Proof.
  intros a b Wa Wb. assert (B0 : bit 0) by (split; lia). rewrite fpsub_adds8 by auto. apply fp_post8_put.
  - split; [reflexivity|saved6].
  - reflexivity.
  - intros y. pose proof (pro_fsub_regs s) as H. cbv zeta in H. rewrite Z.lxor_nilpotent, Z.sub_0_r in H. fold a b in H.
    rewrite fsub_split, run_app. apply (fsub_mid_mem s _ _ (subcy 0 a b)); auto using subs_words, subcy_bit.
Qed.
Lemma fpadd503_ok s : let a := wat (mem s) (rg s RDI) 0 8 in let b := wat (mem s) (rg s RSI) 0 8 in
  Forall word a -> Forall word b -> fp_post8 s (run fpadd503_asm s) (fpadd P a b).
Proof.
  intros a b Wa Wb. assert (B0 : bit 0) by (split; lia). rewrite fpadd_adds8 by auto. cbv zeta. apply fp_post8_put.
  - split; [reflexivity|saved6].
  - reflexivity.
  - intros y. pose proof (pro_fadd_regs s) as H. cbv zeta in H. rewrite Z.lxor_nilpotent, Z.sub_0_r in H. fold a b in H.
    rewrite fadd_split, run_app. apply (fsub_mid_mem s _ _ (subcy 0 (adds 0 a b) (w_px2 P))); auto using subs_words, subcy_bit.
Qed.

(** ** mp_add503_asm *)
(** The words are those of another number or do not overlap it. *)
Definition apart8 (x y : Z) : Prop := x = y \/ x + 64 <= y \/ y + 64 <= x.
Lemma put4_out8 x y i l m : apart8 x y -> i = 32 \/ i = 40 \/ i = 48 \/ i = 56 -> put4 x l m (y + i) = m (y + i).
Proof.
  intros H Hi. unfold put4. unfold apart8 in H.
  repeat match goal with |- context [?a =? ?b] => destruct (Z.eqb_spec a b); [exfalso; lia|] end. reflexivity.
Qed.
Definition pro_madd : list instr := firstn 8 mp_add503_asm.
Definition epi_madd : list instr := skipn 8 mp_add503_asm.
Lemma madd_split : mp_add503_asm = pro_madd ++ epi_madd. Proof. reflexivity. Qed.
Lemma epi_madd_mem s y : let lo := map (rg s) [R8; R9; R10; R11] in let m := put4 (rg s RDX) lo (mem s) in
  let hi x := [m (x + 32); m (x + 40); m (x + 48); m (x + 56)] in
  mem (run epi_madd s) y = put8 (rg s RDX) (lo ++ adds (cf s) (hi (rg s RDI)) (hi (rg s RSI))) (mem s) y.
Proof. reflexivity. Qed.
Lemma pro_madd_regs s : let a := wat (mem s) (rg s RDI) 0 8 in let b := wat (mem s) (rg s RSI) 0 8 in
  let s1 := run pro_madd s in
  (mem s1 = mem s /\ rg s1 RDX = rg s RDX /\ rg s1 RDI = rg s RDI /\ rg s1 RSI = rg s RSI) /\
  cf s1 = addcy 0 (firstn 4 a) (firstn 4 b) /\ map (rg s1) [R8; R9; R10; R11] = adds 0 (firstn 4 a) (firstn 4 b).
Proof. repeat split; reflexivity. Qed.
Lemma mp_add503_ok s : let a := wat (mem s) (rg s RDI) 0 8 in let b := wat (mem s) (rg s RSI) 0 8 in
  Forall word a -> Forall word b -> apart8 (rg s RDX) (rg s RDI) -> apart8 (rg s RDX) (rg s RSI) ->
  fp_post8 s (run mp_add503_asm s) (mp_addfast P a b).
Proof.
  intros a b Wa Wb Xa Xb. rewrite mp_add_adds8 by auto. apply fp_post8_put.
  - split; [reflexivity|saved6].
  - reflexivity.
  - intros y. rewrite madd_split, run_app, epi_madd_mem. cbv zeta.
    destruct (pro_madd_regs s) as ((-> & -> & -> & ->) & -> & ->). rewrite !put4_out8 by (auto; lia). fold a b.
    change [mem s (rg s RDI + 32); mem s (rg s RDI + 40); mem s (rg s RDI + 48); mem s (rg s RDI + 56)] with (skipn 4 a).
    change [mem s (rg s RSI + 32); mem s (rg s RSI + 40); mem s (rg s RSI + 48); mem s (rg s RSI + 56)] with (skipn 4 b).
    rewrite <- adds_app by reflexivity. now rewrite !firstn_skipn.
Qed.
