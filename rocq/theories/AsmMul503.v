(** fpmul503_asm. *)
From Verif Require Import Base BaseP Params Digits Fp FpP Asm AsmP503 AsmP AsmRedP AsmRed2 AsmMul434.

Local Notation P := (P503 T64).
Definition p503 : Z := valB W (w_p P).
Definition zregs (z : reg) : list reg := [R8; R9; R10; R11; R12; R13; R14; R15; z].
Definition zreg9 : list reg := zregs RAX.
Definition hi503 : list Z := skipn 3 (w_pp1 P).

Lemma p503_1 : p503 + 1 = W ^ Z.of_nat 3 * valB W hi503.
Proof. reflexivity. Qed.
Lemma p503_pos : 0 < p503. Proof. reflexivity. Qed.
Lemma hi503_word : Forall word hi503.
Proof. repeat constructor; vm_compute; intuition discriminate. Qed.
Lemma hi503_ops C s : mops C s (mT (w_pp1 P) 24) 0 hi503.
Proof. repeat split; intros s' _; reflexivity. Qed.

Lemma FPMUL_mont8 M0 M1 z8 T0 T1 : FPMUL512x512 M0 M1 R8 R9 R10 R11 R12 R13 R14 R15 z8 T0 T1 =
  mont2 (mT (w_pp1 P) 24) 3 T0 T1 M1 M0 7 (zregs z8).
Proof. reflexivity. Qed.

(** Eight words stored at x. *)
Definition put8 (x : Z) (l : list Z) (m : Z -> Z) : Z -> Z :=
  fun y => if y =? x + 56 then nth 7 l 0 else if y =? x + 48 then nth 6 l 0 else if y =? x + 40 then nth 5 l 0 else
           if y =? x + 32 then nth 4 l 0 else if y =? x + 24 then nth 3 l 0 else if y =? x + 16 then nth 2 l 0 else
           if y =? x + 8 then nth 1 l 0 else if y =? x + 0 then nth 0 l 0 else m y.
Lemma put8_wat x l m m' : (forall y, m' y = put8 x l m y) -> length l = 8%nat -> wat m' x 0 8 = l.
Proof.
  intros H L. do 9 (destruct l as [|? l]; [try discriminate|]); [|discriminate].
  unfold wat. cbn [seq map]. rewrite !H. unfold put8. cbn [nth].
  repeat match goal with |- context [?a =? ?b] => destruct (Z.eqb_spec a b); try lia end. reflexivity.
Qed.
Lemma put8_only x l m m' : (forall y, m' y = put8 x l m y) -> only_at x 8 m m'.
Proof.
  intros H y Hy. rewrite H. unfold put8.
  pose proof (Hy 0%nat ltac:(lia)). pose proof (Hy 1%nat ltac:(lia)). pose proof (Hy 2%nat ltac:(lia)).
  pose proof (Hy 3%nat ltac:(lia)). pose proof (Hy 4%nat ltac:(lia)). pose proof (Hy 5%nat ltac:(lia)).
  pose proof (Hy 6%nat ltac:(lia)). pose proof (Hy 7%nat ltac:(lia)).
  repeat match goal with |- context [?a =? ?b] => destruct (Z.eqb_spec a b); [lia|] end. reflexivity.
Qed.

(** ** fpmul503_asm, lines 1642-1687 *)
Definition pro_mul8 : list instr := firstn 25 fpmul503_asm.
Definition epi_mul8 : list instr := skipn (length fpmul503_asm - 14) fpmul503_asm.
Lemma fpmul503_split : fpmul503_asm =
  pro_mul8 ++ FPMUL512x512 (mB RSI 0) (mB RDI 0) R8 R9 R10 R11 R12 R13 R14 R15 RAX RBX RBP ++ epi_mul8.
Proof. reflexivity. Qed.
Lemma pro_mul_regs8 s : map (rg (run pro_mul8 s)) zreg9 = mul_row (mem s (rg s RSI + 0)) (wat (mem s) (rg s RDI) 0 8).
Proof.
  unfold pro_mul8, fpmul503_asm. cbn [firstn app]. sim_cbn. rewrite !Z.lxor_nilpotent.
  assert (X : forall a b, 0 + a + b = a + 0 + b) by (intros; lia). rewrite X. reflexivity.
Qed.

Definition mul_post8 (a b c : list Z) : Prop :=
  Forall word c /\ length c = 8%nat /\ 0 <= valB W c < valB W a + p503 /\
  exists m, 0 <= m < W ^ 8 /\ W ^ 8 * valB W c = valB W a * valB W b + m * p503.

Lemma FPMUL_ok8 z8 T0 T1 M0 M1 b bs ms s : let C := clob2 T0 T1 (zregs z8) in
  (z8, T0, T1) = (RAX, RBX, RBP) \/ (z8, T0, T1) = (RBP, RBX, RCX) ->
  mops C s M0 1 bs -> mops C s M1 0 ms -> length ms = 8%nat -> length bs = 7%nat ->
  Forall word (b :: bs) -> Forall word ms -> words s (zregs z8) -> valr s (zregs z8) = b * valB W ms -> valB W ms + p503 <= W ^ 8 ->
  let s' := run (FPMUL512x512 M0 M1 R8 R9 R10 R11 R12 R13 R14 R15 z8 T0 T1) s in
  frame C s s' /\ mul_post8 ms (b :: bs) (map (rg s') [z8; R8; R9; R10; R11; R12; R13; R14]).
Proof.
  intros C HT HB HM Lm Lb Wb Wm Hw HV HA s'. unfold s'. rewrite FPMUL_mont8.
  pose proof (mont_ok2 (mT (w_pp1 P) 24) hi503 3 p503 T0 T1) as K.
  specialize (K ltac:(destruct HT as [H|H]; injection H as -> -> ->; discriminate)).
  specialize (K ltac:(destruct HT as [H|H]; injection H as -> -> ->; discriminate)).
  specialize (K ltac:(destruct HT as [H|H]; injection H as -> -> ->; discriminate)).
  specialize (K hi503_ops hi503_word ltac:(lia) ltac:(discriminate) p503_1 p503_pos M1 ms Wm M0 C b bs (zregs z8) s).
  assert (RR : removelast (rots 8 (zregs z8)) = [z8; R8; R9; R10; R11; R12; R13; R14]) by reflexivity.
  rewrite Lb in K. cbv zeta in K. rewrite RR in K. cbn [length] in K. rewrite Lb, Lm in K.
  generalize dependent (run (mont2 (mT (w_pp1 P) 24) 3 T0 T1 M1 M0 7 (zregs z8)) s). clear s' RR. intros s' K.
  destruct K as (F & W' & V & m & Hm & E); auto.
  - apply incl_refl.
  - destruct HT as [H|H]; injection H as -> -> ->; (split; [nodup|]); repeat split; notin.
  - split; auto. unfold mul_post8, valr in *. split; [|split; [|split]].
    + exact (proj2 (Forall_map _ _ _) W').
    + reflexivity.
    + exact V.
    + exists m. split; [exact Hm|]. exact E.
Qed.

Lemma pro_mul_ok8 s : let a := wat (mem s) (rg s RDI) 0 8 in let b := wat (mem s) (rg s RSI) 0 8 in
  Forall word a -> word (mem s (rg s RSI + 0)) ->
  let s1 := run pro_mul8 s in
  mem s1 = mem s /\ rg s1 RDI = rg s RDI /\ rg s1 RSI = rg s RSI /\ rg s1 RCX = rg s RDX /\
  stk s1 = rg s RBP :: rg s RBX :: rg s R15 :: rg s R14 :: rg s R13 :: rg s R12 :: stk s /\
  words s1 zreg9 /\ valr s1 zreg9 = mem s (rg s RSI + 0) * valB W a.
Proof.
  intros a b Wa W0 s1. do 5 (split; [reflexivity|]).
  destruct (mul_row_ok (mem s (rg s RSI + 0)) a W0 ltac:(discriminate) Wa) as [WR VR].
  destruct (words_map _ _ _ (pro_mul_regs8 s) WR) as [W1 V1]. fold a s1 in W1, V1. rewrite VR in V1. auto.
Qed.
Lemma epi_mul_ok8 s s2 : mem s2 = mem s -> rg s2 RCX = rg s RDX ->
  stk s2 = rg s RBP :: rg s RBX :: rg s R15 :: rg s R14 :: rg s R13 :: rg s R12 :: stk s ->
  let s' := run epi_mul8 s2 in
  saved s s' /\ only_at (rg s RDX) 8 (mem s) (mem s') /\
  wat (mem s') (rg s RDX) 0 8 = map (rg s2) [RAX; R8; R9; R10; R11; R12; R13; R14].
Proof.
  intros M2 RC2 K2 s'.
  assert (PM : forall y, mem s' y = put8 (rg s RDX) (map (rg s2) [RAX; R8; R9; R10; R11; R12; R13; R14]) (mem s) y).
  { intros y. rewrite <- RC2, <- M2. reflexivity. }
  split; [|split].
  - split; [now cbn; rewrite K2|].
    intros r Hr. cbn in Hr. destruct Hr as [<-|[<-|[<-|[<-|[<-|[<-|[]]]]]]]; cbn; now rewrite K2.
  - eapply put8_only; eauto.
  - now rewrite (put8_wat _ _ _ _ PM) by reflexivity.
Qed.
Lemma fpmul503_ok s : let a := wat (mem s) (rg s RDI) 0 8 in let b := wat (mem s) (rg s RSI) 0 8 in
  Forall word a -> Forall word b -> valB W a + p503 <= W ^ 8 ->
  let s' := run fpmul503_asm s in
  saved s s' /\ only_at (rg s RDX) 8 (mem s) (mem s') /\ mul_post8 a b (wat (mem s') (rg s RDX) 0 8).
Proof.
  intros a b Wa Wb HA. cbv zeta. rewrite fpmul503_split, !run_app.
  assert (Hb : b = mem s (rg s RSI + 0) :: tl b) by reflexivity.
  assert (Wb' := Wb). rewrite Hb in Wb'. inversion_clear Wb' as [|? ? W0 Wt].
  pose proof (pro_mul_ok8 s Wa W0) as P0. cbv zeta in P0.
  generalize dependent (run pro_mul8 s). intros s1 (M1 & RI & RS & RC & K1 & W1 & V1).
  destruct (FPMUL_ok8 RAX RBX RBP (mB RSI 0) (mB RDI 0) (mem s (rg s RSI + 0)) (tl b) a s1) as (F & Q); auto.
  - apply mops_tl; [notin|exact RS|now rewrite M1].
  - apply mops_wat; [notin|exact RI|now rewrite M1].
  - rewrite <- Hb in Q.
    generalize dependent (run (FPMUL512x512 (mB RSI 0) (mB RDI 0) R8 R9 R10 R11 R12 R13 R14 R15 RAX RBX RBP) s1).
    intros s2 (M2 & K2 & _ & R2) Q. rewrite K1 in K2. rewrite M1 in M2.
    assert (RC2 : rg s2 RCX = rg s RDX) by (rewrite R2; [exact RC|notin]).
    destruct (epi_mul_ok8 s s2 M2 RC2 K2) as (A & B & C). rewrite C. auto.
Qed.
