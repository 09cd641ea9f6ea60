(** Property theorems C61-C64: the x86-64 code of S/P434/AMD64/fp_x64_asm.S. *)
From Verif Require Import Base BaseP Params Digits Fp Asm AsmP434 AsmP AsmRedP AsmMul434 AsmAdd434 AsmFp434 AsmSqr434 AsmDbl434 AsmRun434.

Local Notation P := (P434 T64).
(** [words7 s r d]: the seven words at address r + d, [keeps s s' x n]: the call keeps rbx, rbp, r12-r15 and the stack, and
    writes at most the n words at x. *)
Local Notation words7 s r d := (wat (mem s) (rg s r) d 7).
Local Notation keeps s s' x n := (saved s s' /\ only_at x n (mem s) (mem s')).

(** * C61: addition and subtraction *)
(** For all words the result is that of the portable functions; fpadd434_asm, fpsub434_asm and mp_sub434_p2_asm allow any overlap
    of the operands and the result, mp_add434_asm equal or disjoint ones. *)
Theorem C61_fpadd : forall s, Forall word (words7 s RDI 0) -> Forall word (words7 s RSI 0) ->
  let s' := run fpadd434_asm s in keeps s s' (rg s RDX) 7 /\
  wat (mem s') (rg s RDX) 0 7 = fpadd P (words7 s RDI 0) (words7 s RSI 0).
Proof. exact (fun s Ha Hb => let H := fpadd434_ok s Ha Hb in conj (conj (proj1 H) (proj1 (proj2 H))) (proj2 (proj2 H))). Qed.
Print Assumptions C61_fpadd.
Theorem C61_fpsub : forall s, Forall word (words7 s RDI 0) -> Forall word (words7 s RSI 0) ->
  let s' := run fpsub434_asm s in keeps s s' (rg s RDX) 7 /\
  wat (mem s') (rg s RDX) 0 7 = fpsub P (words7 s RDI 0) (words7 s RSI 0).
Proof. exact (fun s Ha Hb => let H := fpsub434_ok s Ha Hb in conj (conj (proj1 H) (proj1 (proj2 H))) (proj2 (proj2 H))). Qed.
Print Assumptions C61_fpsub.
Theorem C61_mp_sub_p2 : forall s, Forall word (words7 s RDI 0) -> Forall word (words7 s RSI 0) ->
  let s' := run mp_sub434_p2_asm s in keeps s s' (rg s RDX) 7 /\
  wat (mem s') (rg s RDX) 0 7 = mp_sub_p2 P (words7 s RDI 0) (words7 s RSI 0).
Proof. exact (fun s Ha Hb => let H := mp_sub434_p2_ok s Ha Hb in conj (conj (proj1 H) (proj1 (proj2 H))) (proj2 (proj2 H))). Qed.
Print Assumptions C61_mp_sub_p2.
Theorem C61_mp_add : forall s, Forall word (words7 s RDI 0) -> Forall word (words7 s RSI 0) ->
  apart (rg s RDX) (rg s RDI) -> apart (rg s RDX) (rg s RSI) ->
  let s' := run mp_add434_asm s in keeps s s' (rg s RDX) 7 /\
  wat (mem s') (rg s RDX) 0 7 = mp_addfast P (words7 s RDI 0) (words7 s RSI 0).
Proof. exact (fun s Ha Hb X Y => let H := mp_add434_ok s Ha Hb X Y in conj (conj (proj1 H) (proj1 (proj2 H))) (proj2 (proj2 H))). Qed.
Print Assumptions C61_mp_add.

(** [start a b] has the operands at 1000 and 2000, the result at 3000, 5 elsewhere in memory and 7 in the other registers; [pm1] is p - 1. *)
Example C61_example :
  let s := run fpadd434_asm (start pm1 (w_px2 P)) in
  wat (mem s) 3000 0 7 = pm1 /\ mem s 3056 = 5 /\ map (rg s) [RBX; RBP; R12; R15] = [7; 7; 7; 7] /\ stk s = [11] /\
  wat (mem (run fpsub434_asm (start [0; 0; 0; 0; 0; 0; 0] one7))) 3000 0 7 =
    upd 0 (nth 0 (w_px2 P) 0 - 1) (w_px2 P).
Proof. lazy. repeat split. Qed.

(** * C62: multiplication *)
(** The result is below a + p and R times it is a b modulo p, for all words with a + p <= R; the operands and the result may overlap.
    When a b < R p these are the words of the portable fpmul_mont. *)
Theorem C62_fpmul : forall s, let a := words7 s RDI 0 in let b := words7 s RSI 0 in
  Forall word a -> Forall word b -> valB W a + p434 <= W ^ 7 ->
  let s' := run fpmul434_asm s in let r := wat (mem s') (rg s RDX) 0 7 in keeps s s' (rg s RDX) 7 /\
  Forall word r /\ 0 <= valB W r < valB W a + p434 /\ (W ^ 7 * valB W r) mod p434 = (valB W a * valB W b) mod p434.
Proof. exact fpmul434_val. Qed.
Print Assumptions C62_fpmul.
Theorem C62_portable : forall s, let a := words7 s RDI 0 in let b := words7 s RSI 0 in
  Forall word a -> Forall word b -> valB W a + p434 <= W ^ 7 -> valB W a * valB W b < W ^ 7 * p434 ->
  wat (mem (run fpmul434_asm s)) (rg s RDX) 0 7 = fpmul_mont P a b.
Proof. exact (fun s Ha Hb H1 H2 => proj2 (proj2 (fpmul434_eq s Ha Hb H1 H2))). Qed.
Print Assumptions C62_portable.
(** p434 is the modulus; R^2 mod p times 1. *)
Example C62_example : p434 = 2 ^ 216 * 3 ^ 137 - 1 /\
  let r := wat (mem (run fpmul434_asm (start (w_R2 P) one7))) 3000 0 7 in (W ^ 7 * valB W r) mod p434 = (W ^ 7 * W ^ 7) mod p434.
Proof. split; [reflexivity|exact run_R2]. Qed.

(** * C63: squaring in GF(p^2) *)
(** c0 = (a0 + a1)(a0 - a1 + 4p) into a buffer of fourteen words that does not meet the operand, c1 = (2 a0) a1. *)
Theorem C63_c0 : forall s, let a0 := words7 s RDI 0 in let a1 := words7 s RDI 56 in
  let t1 := mp_addfast P a0 a1 in let t2 := mp_sub_p4 P a0 a1 in
  Forall word a0 -> Forall word a1 -> off14 (rg s RSI) (rg s RDI) ->
  valB W t2 + p434 <= W ^ 7 -> valB W t1 * valB W t2 < W ^ 7 * p434 ->
  let s' := run fp2sqr434_c0_asm s in
  saved s s' /\ only_at (rg s RSI) 14 (mem s) (mem s') /\
  wat (mem s') (rg s RSI) 0 7 = fst (fp2sqr_mont P (a0, a1)).
Proof. exact fp2sqr434_c0_ok. Qed.
Print Assumptions C63_c0.
Theorem C63_c1 : forall s, let a0 := words7 s RDI 0 in let a1 := words7 s RDI 56 in
  let t := mp_addfast P a0 a0 in
  Forall word a0 -> Forall word a1 -> valB W a1 + p434 <= W ^ 7 -> valB W t * valB W a1 < W ^ 7 * p434 ->
  let s' := run fp2sqr434_c1_asm s in
  saved s s' /\ only_at (rg s RSI) 7 (mem s) (mem s') /\
  wat (mem s') (rg s RSI) 0 7 = snd (fp2sqr_mont P (a0, a1)).
Proof. exact fp2sqr434_c1_ok. Qed.
Print Assumptions C63_c1.
(** (2 + 3i)^2: the premises hold for 2 + 3i, at 1000 in the state s23, and a buffer at 2000. *)
Example C63_example :
  wat (mem (run fp2sqr434_c0_asm s23)) 2000 0 7 = fst (fp2sqr_mont P ([2; 0; 0; 0; 0; 0; 0], [3; 0; 0; 0; 0; 0; 0])) /\
  wat (mem (run fp2sqr434_c1_asm s23)) 2000 0 7 = snd (fp2sqr_mont P ([2; 0; 0; 0; 0; 0; 0], [3; 0; 0; 0; 0; 0; 0])).
Proof. exact run_sqr. Qed.

(** * C64: multiplication in GF(p^2) *)
(** The imaginary part: below 2p and a0 b1 + a1 b0 over R modulo p, whatever the overlaps. *)
Theorem C64_c1 : forall s,
  let a0 := words7 s RDI 0 in let a1 := words7 s RDI 56 in let b0 := words7 s RSI 0 in let b1 := words7 s RSI 56 in
  Forall word (a0 ++ a1 ++ b0 ++ b1) ->
  2 * (valB W a0 + valB W a1 + p434) <= W ^ 7 ->
  valB W a0 * valB W b1 + valB W a1 * valB W b0 < W ^ 7 * p434 ->
  let s' := run fp2mul434_c1_asm s in let r := wat (mem s') (rg s RDX) 0 7 in
  saved s s' /\ only_at (rg s RDX) 7 (mem s) (mem s') /\ Forall word r /\ 0 <= valB W r < 2 * p434 /\
  (W ^ 7 * valB W r) mod p434 = (valB W a0 * valB W b1 + valB W a1 * valB W b0) mod p434.
Proof. exact fp2mul434_c1_val. Qed.
Print Assumptions C64_c1.
(** The real part, into a buffer that meets neither operand: it is computed as a0 b0 + a1 (8p - b1), so b1 must be at most 8p. *)
Theorem C64_c0 : forall s,
  let a0 := words7 s RDI 0 in let a1 := words7 s RDI 56 in let b0 := words7 s RSI 0 in let b1 := words7 s RSI 56 in
  clear14 (rg s RDX) (rg s RDI) -> clear14 (rg s RDX) (rg s RSI) ->
  Forall word (a0 ++ a1 ++ b0 ++ b1) ->
  2 * (valB W a0 + valB W a1 + p434) <= W ^ 7 -> valB W b1 <= 8 * p434 ->
  valB W a0 * valB W b0 + valB W a1 * (8 * p434 - valB W b1) < W ^ 7 * p434 ->
  let s' := run fp2mul434_c0_asm s in let r := wat (mem s') (rg s RDX) 0 7 in
  saved s s' /\ only_at (rg s RDX) 7 (mem s) (mem s') /\ Forall word r /\ 0 <= valB W r < 2 * p434 /\
  (W ^ 7 * valB W r) mod p434 = (valB W a0 * valB W b0 - valB W a1 * valB W b1) mod p434.
Proof. exact fp2mul434_c0_val. Qed.
Print Assumptions C64_c0.
(** Above 8p the result is wrong.  The portable function is right there: C21_fp2mul allows 10p for j = 2; and get_3_isog
    makes this operand as a sum of five values below 2p.  i (9p i) should be 0 modulo p, and the result is 1. *)
Theorem C64_limit :
  let s := start (repeat 0 7 ++ one7) (repeat 0 7 ++ nine_p) in
  Forall word nine_p /\ valB W nine_p = 9 * p434 /\ words7 s RSI 56 = nine_p /\
  (W ^ 7 * valB W (wat (mem (run fp2mul434_c0_asm s)) 3000 0 7)) mod p434 = W ^ 7 mod p434 /\
  W ^ 7 mod p434 <> (valB W (repeat 0 7) * valB W (repeat 0 7) - valB W one7 * valB W nine_p) mod p434.
Proof. exact nine_p_wrong. Qed.
Print Assumptions C64_limit.
(** (2 + 3i)(4 + 5i) = -7 + 22i, up to the factor 1/R. *)
Example C64_example :
  (W ^ 7 * valB W (wat (mem (run fp2mul434_c0_asm s23)) 3000 0 7)) mod p434 = p434 - 7 /\
  (W ^ 7 * valB W (wat (mem (run fp2mul434_c1_asm s23)) 3000 0 7)) mod p434 = 22.
Proof. exact (conj run_c0 run_c1). Qed.
