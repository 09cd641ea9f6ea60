(** Property theorems C66-C69: the x86-64 code of S/P503/AMD64/fp_x64_asm.S. *)
From Verif Require Import Base BaseP Params Digits Fp Asm AsmP503 AsmP AsmRedP AsmMul434 AsmAdd434 AsmRun434 AsmMul503 AsmAdd503
  AsmFp503 AsmSqr503 AsmDbl503 AsmRun503.

Local Notation P := (P503 T64).
(** [words8 s r d]: the eight words at address r + d, [keeps s s' x n]: the call keeps rbx, rbp, r12-r15 and the stack, and
    writes at most the n words at x. *)
Local Notation words8 s r d := (wat (mem s) (rg s r) d 8).
Local Notation keeps s s' x n := (saved s s' /\ only_at x n (mem s) (mem s')).

(** * C66: addition and subtraction *)
(** For all words the result is that of the portable functions; fpadd503_asm, fpsub503_asm and mp_sub503_p2_asm allow any overlap
    of the operands and the result, mp_add503_asm equal or disjoint ones. *)
Theorem C66_fpadd : forall s, Forall word (words8 s RDI 0) -> Forall word (words8 s RSI 0) ->
  let s' := run fpadd503_asm s in keeps s s' (rg s RDX) 8 /\
  wat (mem s') (rg s RDX) 0 8 = fpadd P (words8 s RDI 0) (words8 s RSI 0).
Proof. exact (fun s Ha Hb => let H := fpadd503_ok s Ha Hb in conj (conj (proj1 H) (proj1 (proj2 H))) (proj2 (proj2 H))). Qed.
Print Assumptions C66_fpadd.
Theorem C66_fpsub : forall s, Forall word (words8 s RDI 0) -> Forall word (words8 s RSI 0) ->
  let s' := run fpsub503_asm s in keeps s s' (rg s RDX) 8 /\
  wat (mem s') (rg s RDX) 0 8 = fpsub P (words8 s RDI 0) (words8 s RSI 0).
Proof. exact (fun s Ha Hb => let H := fpsub503_ok s Ha Hb in conj (conj (proj1 H) (proj1 (proj2 H))) (proj2 (proj2 H))). Qed.
Print Assumptions C66_fpsub.
Theorem C66_mp_sub_p2 : forall s, Forall word (words8 s RDI 0) -> Forall word (words8 s RSI 0) ->
  let s' := run mp_sub503_p2_asm s in keeps s s' (rg s RDX) 8 /\
  wat (mem s') (rg s RDX) 0 8 = mp_sub_p2 P (words8 s RDI 0) (words8 s RSI 0).
Proof. exact (fun s Ha Hb => let H := mp_sub503_p2_ok s Ha Hb in conj (conj (proj1 H) (proj1 (proj2 H))) (proj2 (proj2 H))). Qed.
Print Assumptions C66_mp_sub_p2.
Theorem C66_mp_add : forall s, Forall word (words8 s RDI 0) -> Forall word (words8 s RSI 0) ->
  apart8 (rg s RDX) (rg s RDI) -> apart8 (rg s RDX) (rg s RSI) ->
  let s' := run mp_add503_asm s in keeps s s' (rg s RDX) 8 /\
  wat (mem s') (rg s RDX) 0 8 = mp_addfast P (words8 s RDI 0) (words8 s RSI 0).
Proof. exact (fun s Ha Hb X Y => let H := mp_add503_ok s Ha Hb X Y in conj (conj (proj1 H) (proj1 (proj2 H))) (proj2 (proj2 H))). Qed.
Print Assumptions C66_mp_add.

(** [start a b] has the operands at 1000 and 2000, the result at 3000, 5 elsewhere in memory and 7 in the other registers; [pm1_503] is p - 1. *)
Example C66_example :
  let s := run fpadd503_asm (start pm1_503 (w_px2 P)) in
  wat (mem s) 3000 0 8 = pm1_503 /\ mem s 3064 = 5 /\ map (rg s) [RBX; RBP; R12; R15] = [7; 7; 7; 7] /\ stk s = [11] /\
  wat (mem (run fpsub503_asm (start [0; 0; 0; 0; 0; 0; 0; 0] one8))) 3000 0 8 =
    upd 0 (nth 0 (w_px2 P) 0 - 1) (w_px2 P).
Proof. lazy. repeat split. Qed.

(** * C67: multiplication *)
(** The result is below a + p and R times it is a b modulo p, for all words with a + p <= R; the operands and the result may overlap.
    When a b < R p these are the words of the portable fpmul_mont. *)
Theorem C67_fpmul : forall s, let a := words8 s RDI 0 in let b := words8 s RSI 0 in
  Forall word a -> Forall word b -> valB W a + p503 <= W ^ 8 ->
  let s' := run fpmul503_asm s in let r := wat (mem s') (rg s RDX) 0 8 in keeps s s' (rg s RDX) 8 /\
  Forall word r /\ 0 <= valB W r < valB W a + p503 /\ (W ^ 8 * valB W r) mod p503 = (valB W a * valB W b) mod p503.
Proof. exact fpmul503_val. Qed.
Print Assumptions C67_fpmul.
Theorem C67_portable : forall s, let a := words8 s RDI 0 in let b := words8 s RSI 0 in
  Forall word a -> Forall word b -> valB W a + p503 <= W ^ 8 -> valB W a * valB W b < W ^ 8 * p503 ->
  wat (mem (run fpmul503_asm s)) (rg s RDX) 0 8 = fpmul_mont P a b.
Proof. exact (fun s Ha Hb H1 H2 => proj2 (proj2 (fpmul503_eq s Ha Hb H1 H2))). Qed.
Print Assumptions C67_portable.
(** p503 is the modulus; R^2 mod p times 1. *)
Example C67_example : p503 = 2 ^ 250 * 3 ^ 159 - 1 /\
  let r := wat (mem (run fpmul503_asm (start (w_R2 P) one8))) 3000 0 8 in (W ^ 8 * valB W r) mod p503 = (W ^ 8 * W ^ 8) mod p503.
Proof. split; [reflexivity|exact run_R2_503]. Qed.

(** * C68: squaring in GF(p^2) *)
(** c0 = (a0 + a1)(a0 - a1 + 4p) into a buffer of sixteen words that does not meet the operand, c1 = (2 a0) a1. *)
Theorem C68_c0 : forall s, let a0 := words8 s RDI 0 in let a1 := words8 s RDI 64 in
  let t1 := mp_addfast P a0 a1 in let t2 := mp_sub_p4 P a0 a1 in
  Forall word a0 -> Forall word a1 -> off16 (rg s RSI) (rg s RDI) ->
  valB W t2 + p503 <= W ^ 8 -> valB W t1 * valB W t2 < W ^ 8 * p503 ->
  let s' := run fp2sqr503_c0_asm s in
  saved s s' /\ only_at (rg s RSI) 16 (mem s) (mem s') /\
  wat (mem s') (rg s RSI) 0 8 = fst (fp2sqr_mont P (a0, a1)).
Proof. exact fp2sqr503_c0_ok. Qed.
Print Assumptions C68_c0.
Theorem C68_c1 : forall s, let a0 := words8 s RDI 0 in let a1 := words8 s RDI 64 in
  let t := mp_addfast P a0 a0 in
  Forall word a0 -> Forall word a1 -> valB W a1 + p503 <= W ^ 8 -> valB W t * valB W a1 < W ^ 8 * p503 ->
  let s' := run fp2sqr503_c1_asm s in
  saved s s' /\ only_at (rg s RSI) 8 (mem s) (mem s') /\
  wat (mem s') (rg s RSI) 0 8 = snd (fp2sqr_mont P (a0, a1)).
Proof. exact fp2sqr503_c1_ok. Qed.
Print Assumptions C68_c1.
(** (2 + 3i)^2: the premises hold for 2 + 3i, at 1000 in the state s23_503, and a buffer at 2000. *)
Example C68_example :
  wat (mem (run fp2sqr503_c0_asm s23_503)) 2000 0 8 = fst (fp2sqr_mont P ([2; 0; 0; 0; 0; 0; 0; 0], [3; 0; 0; 0; 0; 0; 0; 0])) /\
  wat (mem (run fp2sqr503_c1_asm s23_503)) 2000 0 8 = snd (fp2sqr_mont P ([2; 0; 0; 0; 0; 0; 0; 0], [3; 0; 0; 0; 0; 0; 0; 0])).
Proof. exact run_sqr_503. Qed.

(** * C69: multiplication in GF(p^2) *)
(** The imaginary part: below 2p and a0 b1 + a1 b0 over R modulo p, whatever the overlaps. *)
Theorem C69_c1 : forall s,
  let a0 := words8 s RDI 0 in let a1 := words8 s RDI 64 in let b0 := words8 s RSI 0 in let b1 := words8 s RSI 64 in
  Forall word (a0 ++ a1 ++ b0 ++ b1) ->
  valB W a0 + valB W a1 + p503 <= W ^ 8 ->
  valB W a0 * valB W b1 + valB W a1 * valB W b0 < W ^ 8 * p503 ->
  let s' := run fp2mul503_c1_asm s in let r := wat (mem s') (rg s RDX) 0 8 in
  saved s s' /\ only_at (rg s RDX) 8 (mem s) (mem s') /\ Forall word r /\ 0 <= valB W r < 2 * p503 /\
  (W ^ 8 * valB W r) mod p503 = (valB W a0 * valB W b1 + valB W a1 * valB W b0) mod p503.
Proof. exact fp2mul503_c1_val. Qed.
Print Assumptions C69_c1.
(** The real part, into a buffer that meets neither operand: it is computed as a0 b0 + a1 (8p - b1), so b1 must be at most 8p. *)
Theorem C69_c0 : forall s,
  let a0 := words8 s RDI 0 in let a1 := words8 s RDI 64 in let b0 := words8 s RSI 0 in let b1 := words8 s RSI 64 in
  clear16 (rg s RDX) (rg s RDI) -> clear16 (rg s RDX) (rg s RSI) ->
  Forall word (a0 ++ a1 ++ b0 ++ b1) ->
  valB W a0 + valB W a1 + p503 <= W ^ 8 -> valB W b1 <= 8 * p503 ->
  valB W a0 * valB W b0 + valB W a1 * (8 * p503 - valB W b1) < W ^ 8 * p503 ->
  let s' := run fp2mul503_c0_asm s in let r := wat (mem s') (rg s RDX) 0 8 in
  saved s s' /\ only_at (rg s RDX) 8 (mem s) (mem s') /\ Forall word r /\ 0 <= valB W r < 2 * p503 /\
  (W ^ 8 * valB W r) mod p503 = (valB W a0 * valB W b0 - valB W a1 * valB W b1) mod p503.
Proof. exact fp2mul503_c0_val. Qed.
Print Assumptions C69_c0.
(** Above 8p the result is wrong.  The portable function is right there: C21_fp2mul allows 10p for j = 2; and get_3_isog
    makes this operand as a sum of five values below 2p.  i (9p i) should be 0 modulo p, and the result is 1. *)
Theorem C69_limit :
  let s := start (repeat 0 8 ++ one8) (repeat 0 8 ++ nine_p503) in
  Forall word nine_p503 /\ valB W nine_p503 = 9 * p503 /\ words8 s RSI 64 = nine_p503 /\
  (W ^ 8 * valB W (wat (mem (run fp2mul503_c0_asm s)) 3000 0 8)) mod p503 = W ^ 8 mod p503 /\
  W ^ 8 mod p503 <> (valB W (repeat 0 8) * valB W (repeat 0 8) - valB W one8 * valB W nine_p503) mod p503.
Proof. exact nine_p503_wrong. Qed.
Print Assumptions C69_limit.
(** (2 + 3i)(4 + 5i) = -7 + 22i, up to the factor 1/R. *)
Example C69_example :
  (W ^ 8 * valB W (wat (mem (run fp2mul503_c0_asm s23_503)) 3000 0 8)) mod p503 = p503 - 7 /\
  (W ^ 8 * valB W (wat (mem (run fp2mul503_c1_asm s23_503)) 3000 0 8)) mod p503 = 22.
Proof. exact (conj run_c0_503 run_c1_503). Qed.
