(** mp_add434_asm, fpadd434_asm, fpsub434_asm and mp_sub434_p2_asm give the words of the generic functions. *)
From Verif Require Import Base BaseP Params Digits DigitsP Fp Asm AsmP434 AsmP AsmRedP AsmMul434.

Local Notation P := (P434 T64).

(** Chains of ADD, ADC, ... and of SUB, SBB, ... on words: the words and the last carry. *)
Fixpoint adds (c : Z) (xs ys : list Z) : list Z :=
  match xs, ys with
  | x :: xs', y :: ys' => (x + y + c) mod W :: adds ((x + y + c) / W) xs' ys'
  | _, _ => []
  end.
Fixpoint addcy (c : Z) (xs ys : list Z) : Z :=
  match xs, ys with
  | x :: xs', y :: ys' => addcy ((x + y + c) / W) xs' ys'
  | _, _ => c
  end.
Fixpoint subs (c : Z) (xs ys : list Z) : list Z :=
  match xs, ys with
  | x :: xs', y :: ys' => (x - y - c) mod W :: subs (if x - y - c <? 0 then 1 else 0) xs' ys'
  | _, _ => []
  end.
Fixpoint subcy (c : Z) (xs ys : list Z) : Z :=
  match xs, ys with
  | x :: xs', y :: ys' => subcy (if x - y - c <? 0 then 1 else 0) xs' ys'
  | _, _ => c
  end.

Lemma addc_loop_adds xs : forall ys c, Forall word xs -> Forall word ys -> bit c ->
  addc_loop 64 c xs ys = (addcy c xs ys, adds c xs ys).
Proof.
  induction xs as [|x xs IH]; intros [|y ys] c Hx Hy Hc; auto. inversion_clear Hx as [|? ? Wx Wxs].
  inversion_clear Hy as [|? ? Wy Wys]. cbn [addc_loop adds addcy]. rewrite ADDC_spec by (unfold bit in *; auto; lia).
  change (2 ^ 64) with W. destruct (add_word x y c Wx Wy Hc) as (_ & Bv & _).
  change (B 64) with W. rewrite IH; auto.
Qed.
Lemma sub_bit (x : Z) : bit (if x <? 0 then 1 else 0).
Proof. unfold bit. destruct (x <? 0); lia. Qed.
Lemma subc_loop_subs xs : forall ys c, Forall word xs -> Forall word ys -> bit c ->
  subc_loop 64 c xs ys = (subcy c xs ys, subs c xs ys).
Proof.
  induction xs as [|x xs IH]; intros [|y ys] c Hx Hy Hc; auto. inversion_clear Hx as [|? ? Wx Wxs].
  inversion_clear Hy as [|? ? Wy Wys]. cbn [subc_loop subs subcy]. rewrite SUBC_spec by (unfold bit in *; auto; lia).
  change (B 64) with W. rewrite IH; auto using sub_bit.
Qed.
Lemma mod_word x : word (x mod W).
Proof. apply Z.mod_pos_bound. reflexivity. Qed.
Lemma adds_words xs : forall ys c, Forall word (adds c xs ys).
Proof. induction xs as [|x xs IH]; intros [|y ys] c; cbn [adds]; auto using mod_word. Qed.
Lemma subs_words xs : forall ys c, Forall word (subs c xs ys).
Proof. induction xs as [|x xs IH]; intros [|y ys] c; cbn [subs]; auto using mod_word. Qed.
Lemma subcy_bit xs : forall ys c, bit c -> bit (subcy c xs ys).
Proof. induction xs as [|x xs IH]; intros [|y ys] c H; cbn [subcy]; auto using sub_bit. Qed.
Lemma adds_length xs : forall ys c, length xs = length ys -> length (adds c xs ys) = length xs.
Proof. induction xs as [|x xs IH]; intros [|y ys] c H; cbn [adds length]; auto; discriminate. Qed.
Lemma subs_length xs : forall ys c, length xs = length ys -> length (subs c xs ys) = length xs.
Proof. induction xs as [|x xs IH]; intros [|y ys] c H; cbn [subs length]; auto; discriminate. Qed.
Lemma masked_words c (t : list Z) : bit c -> Forall word t -> Forall word (map (fun x => Z.land x ((0 - c) mod W)) t).
Proof.
  intros Hc. induction 1 as [|x t Hx Ht IH]; cbn [map]; constructor; auto.
  assert (c = 0 \/ c = 1) as [-> | ->] by (unfold bit in Hc; lia).
  - change ((0 - 0) mod W) with 0. rewrite Z.land_0_r. split; [lia|reflexivity].
  - change ((0 - 1) mod W) with (Z.ones 64). rewrite Z.land_ones by lia. apply mod_word.
Qed.
Lemma px2_words : Forall word (w_px2 P).
Proof. repeat constructor; vm_compute; intuition discriminate. Qed.
Lemma px4_words : Forall word (w_px4 P).
Proof. repeat constructor; vm_compute; intuition discriminate. Qed.

Lemma mp_add_adds a b : Forall word a -> Forall word b -> mp_addfast P a b = adds 0 a b.
Proof. intros Ha Hb. unfold mp_addfast, mp_add. change (radix P) with 64. rewrite addc_loop_adds; auto. split; lia. Qed.
Lemma fpsub_adds a b : Forall word a -> Forall word b ->
  fpsub P a b = adds 0 (subs 0 a b) (map (fun x => Z.land x ((0 - subcy 0 a b) mod W)) (w_px2 P)).
Proof.
  intros Ha Hb. assert (B0 : bit 0) by (split; lia). unfold fpsub, masked. change (radix P) with 64. rewrite subc_loop_subs by auto.
  change (dsub 64 0 (subcy 0 a b)) with ((0 - subcy 0 a b) mod W).
  rewrite addc_loop_adds; auto using subs_words. apply masked_words; auto using px2_words, subcy_bit.
Qed.
Lemma fpadd_adds a b : Forall word a -> Forall word b ->
  fpadd P a b = let t := adds 0 a b in
    adds 0 (subs 0 t (w_px2 P)) (map (fun x => Z.land x ((0 - subcy 0 t (w_px2 P)) mod W)) (w_px2 P)).
Proof.
  intros Ha Hb. assert (B0 : bit 0) by (split; lia). unfold fpadd, masked. change (radix P) with 64.
  rewrite addc_loop_adds by auto. cbv zeta. set (t := adds 0 a b). assert (Wt : Forall word t) by apply adds_words.
  rewrite subc_loop_subs by auto using px2_words. set (c := subcy 0 t (w_px2 P)).
  change (dsub 64 0 c) with ((0 - c) mod W).
  rewrite addc_loop_adds; auto using subs_words. apply masked_words; auto using px2_words. now apply subcy_bit.
Qed.
Lemma mp_sub_p2_adds a b : Forall word a -> Forall word b -> mp_sub_p2 P a b = adds 0 (subs 0 a b) (w_px2 P).
Proof.
  intros Ha Hb. assert (B0 : bit 0) by (split; lia). unfold mp_sub_p2. change (radix P) with 64.
  rewrite subc_loop_subs by auto. rewrite addc_loop_adds; auto using subs_words, px2_words.
Qed.

(** ** The functions *)
Definition pro_sub2 : list instr := firstn 29 mp_sub434_p2_asm.
Definition epi_sub2 : list instr := skipn 29 mp_sub434_p2_asm.
Lemma pro_sub2_regs s : map (rg (run pro_sub2 s)) [R8; R9; R10; R11; R12; R13; RCX] =
  adds 0 (subs 0 (wat (mem s) (rg s RDI) 0 7) (wat (mem s) (rg s RSI) 0 7)) (w_px2 P).
Proof. reflexivity. Qed.

Definition pro_add : list instr := firstn 48 fpadd434_asm.
Definition epi_add : list instr := skipn 48 fpadd434_asm.
Lemma pro_add_regs s : let t := adds 0 (wat (mem s) (rg s RDI) 0 7) (wat (mem s) (rg s RSI) 0 7) in
  map (rg (run pro_add s)) [R8; R9; R10; R11; R12; R13; R14] =
  adds 0 (subs 0 t (w_px2 P))
    (map (fun x => Z.land x ((Z.lxor (rg s RAX) (rg s RAX) - 0 - subcy 0 t (w_px2 P)) mod W)) (w_px2 P)).
Proof. reflexivity. Qed.

Definition fp_post (s s' : st) (v : list Z) : Prop :=
  saved s s' /\ only_at (rg s RDX) 7 (mem s) (mem s') /\ wat (mem s') (rg s RDX) 0 7 = v.
Lemma fp_post_put s s' v : saved s s' -> length v = 7%nat ->
  (forall y, mem s' y = put7 (rg s RDX) v (mem s) y) -> fp_post s s' v.
Proof. intros S L H. split; auto. split; [eapply put7_only; eauto|]. eapply put7_wat; eauto. Qed.
Ltac saved6 := intros r Hr; cbn in Hr; destruct Hr as [<-|[<-|[<-|[<-|[<-|[<-|[]]]]]]]; reflexivity.

(** Seven words are stored from registers, then registers are popped. *)
Lemma epi_sub2_mem s y : mem (run epi_sub2 s) y =
  put7 (rg s RDX) (map (rg s) [R8; R9; R10; R11; R12; R13; RCX]) (mem s) y.
Proof. reflexivity. Qed.
Lemma epi_add_mem s y : mem (run epi_add s) y =
  put7 (rg s RDX) (map (rg s) [R8; R9; R10; R11; R12; R13; R14]) (mem s) y.
Proof. reflexivity. Qed.
Lemma sub2_split : mp_sub434_p2_asm = pro_sub2 ++ epi_sub2. Proof. reflexivity. Qed.
Lemma add_split : fpadd434_asm = pro_add ++ epi_add. Proof. reflexivity. Qed.
Lemma pro_sub2_fr s : mem (run pro_sub2 s) = mem s /\ rg (run pro_sub2 s) RDX = rg s RDX.
Proof. split; reflexivity. Qed.
Lemma pro_add_fr s : mem (run pro_add s) = mem s /\ rg (run pro_add s) RDX = rg s RDX.
Proof. split; reflexivity. Qed.

Lemma mp_sub434_p2_ok s : let a := wat (mem s) (rg s RDI) 0 7 in let b := wat (mem s) (rg s RSI) 0 7 in
  Forall word a -> Forall word b -> fp_post s (run mp_sub434_p2_asm s) (mp_sub_p2 P a b).
Proof.
  intros a b Wa Wb. rewrite mp_sub_p2_adds by auto. apply fp_post_put.
  - split; [reflexivity|saved6].
  - reflexivity.
  - intros y. unfold a, b. rewrite <- pro_sub2_regs, sub2_split, run_app, epi_sub2_mem.
    destruct (pro_sub2_fr s) as [-> ->]. reflexivity.
Qed.
Lemma fpadd434_ok s : let a := wat (mem s) (rg s RDI) 0 7 in let b := wat (mem s) (rg s RSI) 0 7 in
  Forall word a -> Forall word b -> fp_post s (run fpadd434_asm s) (fpadd P a b).
Proof.
  intros a b Wa Wb. rewrite fpadd_adds by auto. cbv zeta. apply fp_post_put.
  - split; [reflexivity|saved6].
  - reflexivity.
  - intros y. pose proof (pro_add_regs s) as H. cbv zeta in H. rewrite Z.lxor_nilpotent, Z.sub_0_r in H.
    fold a b in H. rewrite <- H, add_split, run_app, epi_add_mem.
    destruct (pro_add_fr s) as [-> ->]. reflexivity.
Qed.

Lemma setc_bt x c : bit c -> (x - x mod 256 + c) mod 2 = c.
Proof.
  intros H. replace (x - x mod 256 + c) with (c + (128 * (x / 256)) * 2) by (pose proof (Z.div_mod x 256 ltac:(lia)); lia).
  rewrite Z_mod_plus_full. apply Z.mod_small. unfold bit in H. lia.
Qed.
Definition pro_fsub : list instr := firstn 29 fpsub434_asm.
Definition epi_fsub : list instr := skipn 29 fpsub434_asm.
Lemma fsub_split : fpsub434_asm = pro_fsub ++ epi_fsub. Proof. reflexivity. Qed.
Lemma epi_fsub_mem s y : let x := rg s RCX in
  mem (run epi_fsub s) y =
  put7 (rg s RDX) (map (rg s) [R8; R9; R10; R11] ++
    adds ((x - x mod 256 + cf s) mod 2) (map (rg s) [R12; R13; R14]) (map (fun x => Z.land x (rg s RAX)) (skipn 4 (w_px2 P))))
    (mem s) y.
Proof. reflexivity. Qed.
Lemma pro_fsub_fr s : mem (run pro_fsub s) = mem s /\ rg (run pro_fsub s) RDX = rg s RDX.
Proof. split; reflexivity. Qed.
Lemma pro_fsub_regs s : let a := wat (mem s) (rg s RDI) 0 7 in let b := wat (mem s) (rg s RSI) 0 7 in
  let k := (Z.lxor (rg s RAX) (rg s RAX) - 0 - subcy 0 a b) mod W in
  let t := map (fun x => Z.land x k) (w_px2 P) in let u := subs 0 a b in let s1 := run pro_fsub s in
  rg s1 RAX = k /\ cf s1 = addcy 0 (firstn 4 u) (firstn 4 t) /\
  map (rg s1) [R8; R9; R10; R11] = adds 0 (firstn 4 u) (firstn 4 t) /\ map (rg s1) [R12; R13; R14] = skipn 4 u.
Proof. repeat split; reflexivity. Qed.
Lemma adds_app u1 : forall t1 c u2 t2, length u1 = length t1 ->
  adds c (u1 ++ u2) (t1 ++ t2) = adds c u1 t1 ++ adds (addcy c u1 t1) u2 t2.
Proof. induction u1 as [|x u1 IH]; intros [|y t1] c u2 t2 H; try discriminate; cbn [app adds addcy]; auto. f_equal. apply IH. auto. Qed.
Lemma addcy_bit xs : forall ys c, Forall word xs -> Forall word ys -> bit c -> bit (addcy c xs ys).
Proof.
  induction xs as [|x xs IH]; intros [|y ys] c Hx Hy Hc; auto. inversion_clear Hx as [|? ? Wx Wxs].
  inversion_clear Hy as [|? ? Wy Wys]. cbn [addcy]. apply IH; auto. now apply add_word.
Qed.
Lemma Forall_firstn {A} (Q : A -> Prop) k l : Forall Q l -> Forall Q (firstn k l).
Proof. intros H. rewrite <- (firstn_skipn k l) in H. now apply Forall_app in H. Qed.
Lemma fpsub434_ok s : let a := wat (mem s) (rg s RDI) 0 7 in let b := wat (mem s) (rg s RSI) 0 7 in
  Forall word a -> Forall word b -> fp_post s (run fpsub434_asm s) (fpsub P a b).
Proof.
  intros a b Wa Wb. assert (B0 : bit 0) by (split; lia). rewrite fpsub_adds by auto. apply fp_post_put.
  - split; [reflexivity|saved6].
  - reflexivity.
  - intros y. destruct (pro_fsub_regs s) as (RA & RC & R1 & R2). rewrite Z.lxor_nilpotent, Z.sub_0_r in *. fold a b in RA, RC, R1, R2.
    rewrite fsub_split, run_app, epi_fsub_mem. destruct (pro_fsub_fr s) as [-> ->]. rewrite RA, RC, R1, R2.
    set (t := map (fun x => Z.land x ((0 - subcy 0 a b) mod W)) (w_px2 P)). set (u := subs 0 a b).
    change (map (fun x => Z.land x ((0 - subcy 0 a b) mod W)) (skipn 4 (w_px2 P))) with (skipn 4 t).
    assert (Wu : Forall word u) by apply subs_words.
    assert (Wt : Forall word t) by (apply masked_words; auto using px2_words, subcy_bit).
    rewrite setc_bt by (apply addcy_bit; auto using Forall_firstn).
    rewrite <- adds_app by reflexivity. now rewrite !firstn_skipn.
Qed.

(** The words are those of another number or do not overlap it. *)
Definition apart (x y : Z) : Prop := x = y \/ x + 56 <= y \/ y + 56 <= x.
Definition put4 (x : Z) (l : list Z) (m : Z -> Z) : Z -> Z :=
  fun y => if y =? x + 24 then nth 3 l 0 else if y =? x + 16 then nth 2 l 0 else if y =? x + 8 then nth 1 l 0 else
           if y =? x + 0 then nth 0 l 0 else m y.
Lemma put4_out x y i l m : apart x y -> i = 32 \/ i = 40 \/ i = 48 -> put4 x l m (y + i) = m (y + i).
Proof.
  intros H Hi. unfold put4. unfold apart in H.
  repeat match goal with |- context [?a =? ?b] => destruct (Z.eqb_spec a b); [exfalso; lia|] end. reflexivity.
Qed.
Definition pro_madd : list instr := firstn 8 mp_add434_asm.
Definition epi_madd : list instr := skipn 8 mp_add434_asm.
Lemma madd_split : mp_add434_asm = pro_madd ++ epi_madd. Proof. reflexivity. Qed.
Lemma epi_madd_mem s y : let lo := map (rg s) [R8; R9; R10; R11] in let m := put4 (rg s RDX) lo (mem s) in
  let hi x := [m (x + 32); m (x + 40); m (x + 48)] in
  mem (run epi_madd s) y = put7 (rg s RDX) (lo ++ adds (cf s) (hi (rg s RDI)) (hi (rg s RSI))) (mem s) y.
Proof. reflexivity. Qed.
Lemma pro_madd_regs s : let a := wat (mem s) (rg s RDI) 0 7 in let b := wat (mem s) (rg s RSI) 0 7 in
  let s1 := run pro_madd s in
  (mem s1 = mem s /\ rg s1 RDX = rg s RDX /\ rg s1 RDI = rg s RDI /\ rg s1 RSI = rg s RSI) /\
  cf s1 = addcy 0 (firstn 4 a) (firstn 4 b) /\ map (rg s1) [R8; R9; R10; R11] = adds 0 (firstn 4 a) (firstn 4 b).
Proof. repeat split; reflexivity. Qed.
Lemma mp_add434_ok s : let a := wat (mem s) (rg s RDI) 0 7 in let b := wat (mem s) (rg s RSI) 0 7 in
  Forall word a -> Forall word b -> apart (rg s RDX) (rg s RDI) -> apart (rg s RDX) (rg s RSI) ->
  fp_post s (run mp_add434_asm s) (mp_addfast P a b).
Proof.
  intros a b Wa Wb Xa Xb. rewrite mp_add_adds by auto. apply fp_post_put.
  - split; [reflexivity|saved6].
  - reflexivity.
  - intros y. rewrite madd_split, run_app, epi_madd_mem. cbv zeta.
    destruct (pro_madd_regs s) as ((-> & -> & -> & ->) & -> & ->). rewrite !put4_out by (auto; lia). fold a b.
    change [mem s (rg s RDI + 32); mem s (rg s RDI + 40); mem s (rg s RDI + 48)] with (skipn 4 a).
    change [mem s (rg s RSI + 32); mem s (rg s RSI + 40); mem s (rg s RSI + 48)] with (skipn 4 b).
    rewrite <- adds_app by reflexivity. now rewrite !firstn_skipn.
Qed.
