(** Property theorems C71-C72: the additions, the subtractions and the multiplication of S/P610/AMD64/fp_x64_asm.S. *)
From Verif Require Import Base BaseP Params Digits Fp Asm AsmP610 AsmP AsmRedP AsmMul434 AsmAdd434 AsmRun434 AsmAdd610
  AsmM610 AsmMul610 AsmFp610.

Local Notation P := (P610 T64).
(** [words10 s r]: the ten words at the address in r, [keeps s s' x n]: the call keeps rbx, rbp, r12-r15 and the stack, and
    writes at most the n words at x. *)
Local Notation words10 s r := (wat (mem s) (rg s r) 0 10).
Local Notation keeps s s' x n := (saved s s' /\ only_at x n (mem s) (mem s')).

(** * C71: addition and subtraction *)
(** For all words the result is that of the portable functions; fpadd610_asm, fpsub610_asm and mp_sub610_p2_asm allow any overlap
    of the operands and the result, mp_add610_asm equal or disjoint ones. *)
Theorem C71_fpadd : forall s, Forall word (words10 s RDI) -> Forall word (words10 s RSI) ->
  let s' := run fpadd610_asm s in keeps s s' (rg s RDX) 10 /\
  wat (mem s') (rg s RDX) 0 10 = fpadd P (words10 s RDI) (words10 s RSI).
Proof. exact (fun s Ha Hb => let H := fpadd610_ok s Ha Hb in conj (conj (proj1 H) (proj1 (proj2 H))) (proj2 (proj2 H))). Qed.
Print Assumptions C71_fpadd.
Theorem C71_fpsub : forall s, Forall word (words10 s RDI) -> Forall word (words10 s RSI) ->
  let s' := run fpsub610_asm s in keeps s s' (rg s RDX) 10 /\
  wat (mem s') (rg s RDX) 0 10 = fpsub P (words10 s RDI) (words10 s RSI).
Proof. exact (fun s Ha Hb => let H := fpsub610_ok s Ha Hb in conj (conj (proj1 H) (proj1 (proj2 H))) (proj2 (proj2 H))). Qed.
Print Assumptions C71_fpsub.
Theorem C71_mp_sub_p2 : forall s, Forall word (words10 s RDI) -> Forall word (words10 s RSI) ->
  let s' := run mp_sub610_p2_asm s in keeps s s' (rg s RDX) 10 /\
  wat (mem s') (rg s RDX) 0 10 = mp_sub_p2 P (words10 s RDI) (words10 s RSI).
Proof. exact (fun s Ha Hb => let H := mp_sub610_p2_ok s Ha Hb in conj (conj (proj1 H) (proj1 (proj2 H))) (proj2 (proj2 H))). Qed.
Print Assumptions C71_mp_sub_p2.
(** mp_add610_asm stores the low five words before it reads the high five. *)
Theorem C71_mp_add : forall s, Forall word (words10 s RDI) -> Forall word (words10 s RSI) ->
  apart10 (rg s RDX) (rg s RDI) -> apart10 (rg s RDX) (rg s RSI) ->
  let s' := run mp_add610_asm s in keeps s s' (rg s RDX) 10 /\
  wat (mem s') (rg s RDX) 0 10 = mp_addfast P (words10 s RDI) (words10 s RSI).
Proof. exact (fun s Ha Hb X Y => let H := mp_add610_ok s Ha Hb X Y in conj (conj (proj1 H) (proj1 (proj2 H))) (proj2 (proj2 H))). Qed.
Print Assumptions C71_mp_add.

Definition pm1_610 : list Z := upd 0 (nth 0 (w_p P) 0 - 1) (w_p P).
(** [start a b] has the operands at 1000 and 2000, the result at 3000, 5 elsewhere in memory and 7 in the other registers; [pm1_610] is p - 1. *)
Example C71_example :
  let s := run fpadd610_asm (start pm1_610 (w_px2 P)) in
  wat (mem s) 3000 0 10 = pm1_610 /\ mem s 3080 = 5 /\ map (rg s) [RBX; RBP; R12; R15] = [7; 7; 7; 7] /\ stk s = [11] /\
  wat (mem (run fpsub610_asm (start [0; 0; 0; 0; 0; 0; 0; 0; 0; 0] [1; 0; 0; 0; 0; 0; 0; 0; 0; 0]))) 3000 0 10 =
    upd 0 (nth 0 (w_px2 P) 0 - 1) (w_px2 P).
Proof. lazy. repeat split. Qed.
(** With the result 24 bytes after an operand mp_add610_asm is not the portable addition: the premise on overlaps is needed. *)
Example C71_overlap :
  let s := setr (start [1; 2; 3; 4; 5; 6; 7; 8; 9; 10] [0; 0; 0; 0; 0; 0; 0; 0; 0; 0]) RDX 1024 in
  wat (mem (run mp_add610_asm s)) 1024 0 10 = [1; 2; 3; 4; 5; 3; 4; 5; 9; 10].
Proof. lazy. repeat split. Qed.

(** * C72: multiplication *)
(** The result is below a + p and R times it is a b modulo p, for all words with a + p <= R; the result and the first operand are
    equal or disjoint, the second operand may overlap both.  When a b < R p these are the words of the portable fpmul_mont. *)
Theorem C72_fpmul : forall s, let a := words10 s RDI in let b := words10 s RSI in
  Forall word a -> Forall word b -> apart10 (rg s RDX) (rg s RDI) -> valB W a + p610 <= W ^ 10 ->
  let s' := run fpmul610_asm s in let r := wat (mem s') (rg s RDX) 0 10 in keeps s s' (rg s RDX) 10 /\
  Forall word r /\ 0 <= valB W r < valB W a + p610 /\ (W ^ 10 * valB W r) mod p610 = (valB W a * valB W b) mod p610.
Proof. exact fpmul610_val. Qed.
Print Assumptions C72_fpmul.
Theorem C72_portable : forall s, let a := words10 s RDI in let b := words10 s RSI in
  Forall word a -> Forall word b -> apart10 (rg s RDX) (rg s RDI) ->
  valB W a + p610 <= W ^ 10 -> valB W a * valB W b < W ^ 10 * p610 ->
  wat (mem (run fpmul610_asm s)) (rg s RDX) 0 10 = fpmul_mont P a b.
Proof. exact (fun s Ha Hb X H1 H2 => proj2 (proj2 (fpmul610_eq s Ha Hb X H1 H2))). Qed.
Print Assumptions C72_portable.
(** p610 is the modulus; R^2 mod p times 1. *)
Example C72_example : p610 = 2 ^ 305 * 3 ^ 192 - 1 /\
  let r := wat (mem (run fpmul610_asm (start (w_R2 P) one10))) 3000 0 10 in (W ^ 10 * valB W r) mod p610 = (W ^ 10 * W ^ 10) mod p610.
Proof. split; [reflexivity|exact run_R2_610]. Qed.
