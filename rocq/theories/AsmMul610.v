(** fpmul610_asm. *)
From Verif Require Import Base BaseP Params Digits Fp FpP Asm AsmP610 AsmM610 AsmP AsmRedP AsmRed3 AsmMul434 AsmAdd434 AsmAdd610.

Local Notation P := (P610 T64).
Definition p610 : Z := valB W (w_p P).
Definition hi610 : list Z := skipn 4 (w_pp1 P).
Lemma p610_1 : p610 + 1 = W ^ Z.of_nat 4 * valB W hi610.
Proof. reflexivity. Qed.
Lemma p610_pos : 0 < p610. Proof. reflexivity. Qed.
Lemma hi610_word : Forall word hi610.
Proof. repeat constructor; vm_compute; intuition discriminate. Qed.

(** One reduction and one row, on given registers; the three low words of the number and the word to be cleared are at rsp. *)
Definition redc (zs : list reg) : list instr :=
  match zs with
  | [a; b; c; d; e; f; g] => MOV RDX (mS 0 24) :: MULADD64x384 (mT (w_pp1 P) 32) a b c d e f g RBX RBP
  | _ => []
  end.
Definition mulc (OUT : Z -> opnd) (k : Z) (zs : list reg) : list instr :=
  match zs with
  | [a; b; c; d; e; f; g; h] => MOV RDX (mB RSI 0 k) :: MULADD64x640b (mB RDI 0) (mS 0) OUT a b c d e f g h RBX RBP RAX h
  | _ => []
  end.
Definition zs0 : list reg := [R12; R13; R14; R15; R8; R9; R10; R11].
Fixpoint rcode (k : Z) (n : nat) (zs : list reg) : list instr :=
  match n with O => [] | S n => mulc (mS 0) k zs ++ redc (tl zs) ++ rcode (k + 8) n (rot zs) end.
Lemma FPMUL_code : FPMUL640x640 (mB RSI 0) (mB RDI 0) (mS 0) (mB RCX 0) R8 R9 R10 R11 R12 R13 R14 R15 RBX RBP RAX =
  redc (removelast zs0) ++ rcode 8 8 zs0 ++ mulc (mB RCX 0) 72 zs0 ++ redc (tl zs0).
Proof. reflexivity. Qed.

Definition same3 (s s' : st) : Prop := rg s' RDI = rg s RDI /\ rg s' RSI = rg s RSI /\ rg s' RCX = rg s RCX.
Definition rots8 : list (list reg) := map (fun n => rots n zs0) [0; 1; 2; 3; 4; 5; 6; 7]%nat.

Lemma redc_run : Forall (fun zs => forall s, let s' := run (redc (tl zs)) s in
  mem s' = mem s /\ stk s' = stk s /\ same3 s s' /\
  map (rg s') (tl zs) = prow1 0 (nth 3 (stk s) 0) (map (rg s) (tl zs)) hi610) rots8.
Proof. unfold rots8. cbn [map]. repeat (apply Forall_cons; [intros s; repeat split; reflexivity|]). apply Forall_nil. Qed.

(** The first nineteen instructions of a row give the four low words and leave both carries in the flags. *)
Definition lo4 (d a0 a1 a2 z3 z4 m0 m1 m2 m3 : Z) : list Z :=
  let v0 := (d * m0) mod W + a0 + 0 in let u0 := d * m0 / W + a1 + v0 / W in
  let v1 := u0 mod W + (d * m1) mod W + 0 in let u1 := d * m1 / W + a2 + u0 / W in
  let v2 := u1 mod W + (d * m2) mod W + v1 / W in let u2 := z3 + d * m2 / W + u1 / W in
  let v3 := u2 mod W + (d * m3) mod W + v2 / W in let u3 := z4 + d * m3 / W + u2 / W in
  [v0 mod W; v1 mod W; v2 mod W; v3 mod W; v3 / W; u3 / W; u3 mod W].
Lemma lo4_prow d a0 a1 a2 z3 z4 r m0 m1 m2 m3 ms : let w := lo4 d a0 a1 a2 z3 z4 m0 m1 m2 m3 in
  prow1 2 d (a0 :: a1 :: a2 :: z3 :: z4 :: r) (m0 :: m1 :: m2 :: m3 :: ms) =
  firstn 4 w ++ prow 0 d (nth 4 w 0) (nth 5 w 0) (nth 6 w 0 :: r) ms.
Proof. reflexivity. Qed.
Definition part1 (OUT : Z -> opnd) (k : Z) (zs : list reg) : list instr := firstn 19 (mulc OUT k zs).
Definition part2 (OUT : Z -> opnd) (k : Z) (zs : list reg) : list instr := skipn 19 (mulc OUT k zs).
Lemma parts OUT k zs s : run (mulc OUT k zs) s = run (part2 OUT k zs) (run (part1 OUT k zs) s).
Proof. rewrite <- run_app. unfold part1, part2. now rewrite firstn_skipn. Qed.
Definition at_ (s : st) (k : Z) : Z := mem s (rg s RDI + (0 + k)).
Lemma part1_run : Forall (fun zs => forall k s a0 a1 a2 a3 K, stk s = a0 :: a1 :: a2 :: a3 :: K ->
  let s' := run (part1 (mS 0) k zs) s in let h := rg s (last zs RAX) in let d := mem s (rg s RSI + (0 + k)) in
  let w := lo4 d a0 a1 a2 (rg s (nth 0 zs RAX)) (rg s (nth 1 zs RAX)) (at_ s 0) (at_ s 8) (at_ s 16) (at_ s 24) in
  mem s' = mem s /\ stk s' = nth 1 w 0 :: nth 2 w 0 :: nth 3 w 0 :: nth 0 w 0 :: K /\ same3 s s' /\
  rg s' RDX = d /\ rg s' RBP = (d * at_ s 32) mod W /\ rg s' RBX = d * at_ s 32 / W /\ cf s' = nth 4 w 0 /\ ovf s' = nth 5 w 0 /\
  map (rg s') (tl zs) = nth 6 w 0 :: map (rg s) (removelast (tl (tl zs))) ++ [Z.lxor h h]) rots8.
Proof.
  unfold rots8. cbn [map].
  repeat (apply Forall_cons; [intros k [g c o m st0 l] a0 a1 a2 a3 K H; cbn [stk] in H; subst st0; repeat split; reflexivity|]).
  apply Forall_nil.
Qed.
Lemma part2_run OUT k : Forall (fun zs => forall s, let s' := run (part2 OUT k zs) s in
  let v := rg s (nth 1 zs RAX) + rg s RBP + cf s in let u := rg s (nth 2 zs RAX) + rg s RBX + ovf s in
  mem s' = mem s /\ stk s' = stk s /\ same3 s s' /\
  map (rg s') (tl zs) = v mod W :: prow 0 (rg s RDX) (v / W) (u / W) (u mod W :: map (rg s) (skipn 3 zs))
    [at_ s 40; at_ s 48; at_ s 56; at_ s 64; at_ s 72]) rots8.
Proof. unfold rots8. cbn [map]. repeat (apply Forall_cons; [intros s; repeat split; reflexivity|]). apply Forall_nil. Qed.
