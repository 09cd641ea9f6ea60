(** The value fpmul503_asm computes, and runs on numbers. *)
From Verif Require Import Base BaseP Params Digits Fp Asm AsmP503 AsmP AsmRedP AsmMul434 AsmAdd434 AsmSqr434 AsmRun434
  AsmMul503 AsmAdd503 AsmFp503 AsmSqr503 AsmDbl503.

Local Notation P := (P503 T64).

Lemma fpmul503_val s : let a := wat (mem s) (rg s RDI) 0 8 in let b := wat (mem s) (rg s RSI) 0 8 in
  Forall word a -> Forall word b -> valB W a + p503 <= W ^ 8 ->
  let s' := run fpmul503_asm s in let r := wat (mem s') (rg s RDX) 0 8 in
  (saved s s' /\ only_at (rg s RDX) 8 (mem s) (mem s')) /\
  Forall word r /\ 0 <= valB W r < valB W a + p503 /\ (W ^ 8 * valB W r) mod p503 = (valB W a * valB W b) mod p503.
Proof.
  intros a b Wa Wb Ha. destruct (fpmul503_ok s Wa Wb Ha) as (S & O & (Wr & _ & V & m & _ & E)).
  cbv zeta. split; [split; auto|]. split; auto. split; auto. rewrite E. apply Z.mod_add. discriminate.
Qed.

Definition pm1_503 : list Z := upd 0 (nth 0 (w_p P) 0 - 1) (w_p P).
Definition one8 : list Z := [1; 0; 0; 0; 0; 0; 0; 0].
Definition nine_p503 : list Z := toB W 8 (9 * p503).
Lemma nine_p503_wrong :
  let s := start (repeat 0 8 ++ one8) (repeat 0 8 ++ nine_p503) in
  Forall word nine_p503 /\ valB W nine_p503 = 9 * p503 /\ wat (mem s) (rg s RSI) 64 8 = nine_p503 /\
  (W ^ 8 * valB W (wat (mem (run fp2mul503_c0_asm s)) 3000 0 8)) mod p503 = W ^ 8 mod p503 /\
  W ^ 8 mod p503 <> (valB W (repeat 0 8) * valB W (repeat 0 8) - valB W one8 * valB W nine_p503) mod p503.
Proof.
  assert (W9 : Forall word nine_p503) by (now apply toB_words).
  assert (V9 : valB W nine_p503 = 9 * p503) by reflexivity.
  set (s := start (repeat 0 8 ++ one8) (repeat 0 8 ++ nine_p503)). cbv zeta.
  assert (A0 : wat (mem s) (rg s RDI) 0 8 = repeat 0 8) by reflexivity.
  assert (A1 : wat (mem s) (rg s RDI) 64 8 = one8) by reflexivity.
  assert (B0 : wat (mem s) (rg s RSI) 0 8 = repeat 0 8) by reflexivity.
  assert (B1 : wat (mem s) (rg s RSI) 64 8 = nine_p503) by reflexivity.
  assert (Z7 : Forall word (repeat 0 8)) by (repeat (apply Forall_cons; [split; [discriminate|reflexivity]|]); apply Forall_nil).
  assert (O7 : Forall word one8) by (repeat (apply Forall_cons; [split; [discriminate|reflexivity]|]); apply Forall_nil).
  split; [exact W9|]. split; [exact V9|]. split; [exact B1|]. split; [|now apply Z.eqb_neq].
  pose proof (fp2mul503_c0_ok s) as H. cbv zeta in H. rewrite A0, A1, B0, B1 in H.
  specialize (H ltac:(right; apply leb_ok; reflexivity) ltac:(right; apply leb_ok; reflexivity) Z7 O7 Z7 W9 ltac:(apply leb_ok; reflexivity)).
  change (rg s RDX) with 3000 in H. clear A0 A1 B0 B1. generalize dependent (run fp2mul503_c0_asm s).
  intros s' (_ & _ & (_ & _ & _ & m & _ & E)).
  assert (EV : valB W (subs 0 t503_px8 nine_p503) = W ^ 8 - p503) by reflexivity. rewrite E, EV.
  replace (valB W (repeat 0 8) * valB W (repeat 0 8) + valB W one8 * (W ^ 8 - p503) + m * p503) with (W ^ 8 + (m - 1) * p503).
  - apply Z.mod_add. discriminate.
  - change (valB W (repeat 0 8)) with 0. change (valB W one8) with 1. ring.
Qed.

(** Runs of the multiplications, read off the theorems. *)
Lemma small8 x : 0 <= x < W -> Forall word (x :: repeat 0 7).
Proof. intros H. apply Forall_cons; [exact H|]. repeat (apply Forall_cons; [split; [discriminate|reflexivity]|]). apply Forall_nil. Qed.
Lemma R2_words503 : Forall word (w_R2 P).
Proof. repeat (apply Forall_cons; [split; [discriminate|reflexivity]|]). apply Forall_nil. Qed.
Lemma run_R2_503 : let r := wat (mem (run fpmul503_asm (start (w_R2 P) one8))) 3000 0 8 in (W ^ 8 * valB W r) mod p503 = (W ^ 8 * W ^ 8) mod p503.
Proof.
  pose proof (fpmul503_val (start (w_R2 P) one8) R2_words503 (small8 1 ltac:(split; [discriminate|reflexivity])) ltac:(apply leb_ok; reflexivity)) as (_ & _ & _ & E).
  cbv zeta. generalize dependent (run fpmul503_asm (start (w_R2 P) one8)). intros s' E. etransitivity; [exact E|]. reflexivity.
Qed.
Definition s23_503 : st := start ([2; 0; 0; 0; 0; 0; 0; 0] ++ [3; 0; 0; 0; 0; 0; 0; 0]) ([4; 0; 0; 0; 0; 0; 0; 0] ++ [5; 0; 0; 0; 0; 0; 0; 0]).
Lemma s23_503_words : Forall word (wat (mem s23_503) 1000 0 8 ++ wat (mem s23_503) 1000 64 8 ++ wat (mem s23_503) 2000 0 8 ++ wat (mem s23_503) 2000 64 8).
Proof. repeat apply Forall_cons; try (split; [discriminate|reflexivity]). apply Forall_nil. Qed.
Lemma run_c0_503 : (W ^ 8 * valB W (wat (mem (run fp2mul503_c0_asm s23_503)) 3000 0 8)) mod p503 = p503 - 7.
Proof.
  pose proof (fp2mul503_c0_val s23_503 ltac:(right; apply leb_ok; reflexivity) ltac:(right; apply leb_ok; reflexivity) s23_503_words ltac:(apply leb_ok; reflexivity) ltac:(apply leb_ok; reflexivity) ltac:(apply ltb_ok; reflexivity))
    as (_ & _ & _ & _ & E).
  cbv zeta in E. change (rg s23_503 RDX) with 3000 in E. generalize dependent (run fp2mul503_c0_asm s23_503). intros s' E. etransitivity; [exact E|]. reflexivity.
Qed.
Lemma run_c1_503 : (W ^ 8 * valB W (wat (mem (run fp2mul503_c1_asm s23_503)) 3000 0 8)) mod p503 = 22.
Proof.
  pose proof (fp2mul503_c1_val s23_503 s23_503_words ltac:(apply leb_ok; reflexivity) ltac:(apply ltb_ok; reflexivity)) as (_ & _ & _ & _ & E).
  cbv zeta in E. change (rg s23_503 RDX) with 3000 in E. generalize dependent (run fp2mul503_c1_asm s23_503). intros s' E. etransitivity; [exact E|]. reflexivity.
Qed.
Lemma run_sqr_503 : let s := s23_503 in
  wat (mem (run fp2sqr503_c0_asm s)) 2000 0 8 = fst (fp2sqr_mont P ([2; 0; 0; 0; 0; 0; 0; 0], [3; 0; 0; 0; 0; 0; 0; 0])) /\
  wat (mem (run fp2sqr503_c1_asm s)) 2000 0 8 = snd (fp2sqr_mont P ([2; 0; 0; 0; 0; 0; 0; 0], [3; 0; 0; 0; 0; 0; 0; 0])).
Proof.
  cbv zeta.
  pose proof (small8 2 ltac:(split; [discriminate|reflexivity])) as H2. pose proof (small8 3 ltac:(split; [discriminate|reflexivity])) as H3.
  split.
  - exact (proj2 (proj2 (fp2sqr503_c0_ok s23_503 H2 H3 ltac:(right; apply leb_ok; reflexivity) ltac:(apply leb_ok; reflexivity) ltac:(apply ltb_ok; reflexivity)))).
  - exact (proj2 (proj2 (fp2sqr503_c1_ok s23_503 H2 H3 ltac:(apply leb_ok; reflexivity) ltac:(apply ltb_ok; reflexivity)))).
Qed.
