(** The x86-64 build of p503: the operations of [fops] with the field arithmetic of S/P503/AMD64/fp_x64_asm.S, as X64.v for p434
    (the same simplifications of the calls). *)
From Verif Require Import Base Digits Out Params Fp FpMisc Ops WordOps Asm AsmP503 AsmRedP AsmRun434 X64.
Set Bullet Behavior "Strict Subproofs".

(** ** The calls *)
Local Notation P := (P503 T64).
(** The eight words left at 3000 by a function of two operands and a result, and at 2000 by one of an operand and a result. *)
Definition call35 (f : list instr) (a b : list Z) : felm := wat (mem (run f (start a b))) 3000 0 8.
Definition call25 (f : list instr) (a : list Z) : felm := wat (mem (run f (start a []))) 2000 0 8.
Definition fpmul_x5 : felm -> felm -> felm := call35 fpmul503_asm.              (* fp_x64.c:189-192 and fpx.c:141-165 *)
Definition fpadd_x5 : felm -> felm -> felm := call35 fpadd503_asm.              (* fp_x64.c:61-90 *)
Definition fpsub_x5 : felm -> felm -> felm := call35 fpsub503_asm.              (* fp_x64.c:93-117 *)
Definition mp_add_x5 : felm -> felm -> felm := call35 mp_add503_asm.            (* fpx.c:228-238 *)
Definition mp_sub_p2_x5 : felm -> felm -> felm := call35 mp_sub503_p2_asm.      (* fp_x64.c:22-41 *)
(* fpx.c:332-340 and fp_x64.c:165-174 *)
Definition fp2mul_x5 (a b : f2elm) : f2elm :=
  let x := fst a ++ snd a in let y := fst b ++ snd b in
  (call35 fp2mul503_c0_asm x y, call35 fp2mul503_c1_asm x y).
(* fpx.c:265-275 and fp_x64.c:177-186 *)
Definition fp2sqr_x5 (a : f2elm) : f2elm :=
  let x := fst a ++ snd a in (call25 fp2sqr503_c0_asm x, call25 fp2sqr503_c1_asm x).

Definition x503_ops : fops :=
  mkOps f2elm
    (fp2zero_w P)
    (w_one P, fpzero P)
    (upd 0 1 (fpzero P), fpzero P)
    (comp2 fpadd_x5) (comp2 fpsub_x5) (comp2 mp_add_x5) (comp2 mp_sub_p2_x5) fp2mul_x5 fp2sqr_x5
    (fp2neg P) (fp2inv_m P fpmul_x5 fpadd_x5) (fp2div2 P)
    (fun x => (fpadd_x5 (fst x) (w_one P), snd x))
    (fp2sqrt_m P fpmul_x5 fpadd_x5 fpsub_x5)
    (fun x y => negb (fp2_equal_m P fpsub_x5 x y =? 0))
    (lt_m P fpmul_x5)
    (fp2_encode_m P fpmul_x5)
    (fp2_decode_m P fpmul_x5 (fp2zero_w P))
    (rand_word P).
