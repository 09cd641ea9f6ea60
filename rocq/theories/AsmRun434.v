(** The value fpmul434_asm computes, and runs on numbers. *)
From Verif Require Import Base BaseP Params Digits Fp Asm AsmP434 AsmP AsmRedP AsmMul434 AsmAdd434 AsmFp434 AsmSqr434 AsmDbl434.

Local Notation P := (P434 T64).

Lemma fpmul434_val s : let a := wat (mem s) (rg s RDI) 0 7 in let b := wat (mem s) (rg s RSI) 0 7 in
  Forall word a -> Forall word b -> valB W a + p434 <= W ^ 7 ->
  let s' := run fpmul434_asm s in let r := wat (mem s') (rg s RDX) 0 7 in
  (saved s s' /\ only_at (rg s RDX) 7 (mem s) (mem s')) /\
  Forall word r /\ 0 <= valB W r < valB W a + p434 /\ (W ^ 7 * valB W r) mod p434 = (valB W a * valB W b) mod p434.
Proof.
  intros a b Wa Wb Ha. destruct (fpmul434_ok s Wa Wb Ha) as (S & O & (Wr & _ & V & m & _ & E)).
  cbv zeta. split; [split; auto|]. split; auto. split; auto. rewrite E. apply Z.mod_add. discriminate.
Qed.

(** A state with operands at 1000 and 2000 and the result at 3000. *)
Definition start (a b : list Z) : st :=
  mkst (fun r => match r with RDI => 1000 | RSI => 2000 | RDX => 3000 | _ => 7 end) 0 0
       (put 1000 0 a (put 2000 0 b (fun _ => 5))) [11] [].
Definition pm1 : list Z := upd 0 (nth 0 (w_p P) 0 - 1) (w_p P).
Definition one7 : list Z := [1; 0; 0; 0; 0; 0; 0].
Definition nine_p : list Z := toB W 7 (9 * p434).
Lemma leb_ok x y : (x <=? y) = true -> x <= y.
Proof. apply Z.leb_le. Qed.
Lemma ltb_ok x y : (x <? y) = true -> x < y.
Proof. apply Z.ltb_lt. Qed.
Lemma toB_words B n : forall x, B = W -> Forall word (toB B n x).
Proof. induction n as [|n IH]; intros x E; cbn [toB]; constructor; auto. rewrite E. apply mod_word. Qed.
Lemma nine_p_wrong :
  let s := start (repeat 0 7 ++ one7) (repeat 0 7 ++ nine_p) in
  Forall word nine_p /\ valB W nine_p = 9 * p434 /\ wat (mem s) (rg s RSI) 56 7 = nine_p /\
  (W ^ 7 * valB W (wat (mem (run fp2mul434_c0_asm s)) 3000 0 7)) mod p434 = W ^ 7 mod p434 /\
  W ^ 7 mod p434 <> (valB W (repeat 0 7) * valB W (repeat 0 7) - valB W one7 * valB W nine_p) mod p434.
Proof.
  assert (W9 : Forall word nine_p) by (now apply toB_words).
  assert (V9 : valB W nine_p = 9 * p434) by reflexivity.
  set (s := start (repeat 0 7 ++ one7) (repeat 0 7 ++ nine_p)). cbv zeta.
  assert (A0 : wat (mem s) (rg s RDI) 0 7 = repeat 0 7) by reflexivity.
  assert (A1 : wat (mem s) (rg s RDI) 56 7 = one7) by reflexivity.
  assert (B0 : wat (mem s) (rg s RSI) 0 7 = repeat 0 7) by reflexivity.
  assert (B1 : wat (mem s) (rg s RSI) 56 7 = nine_p) by reflexivity.
  assert (Z7 : Forall word (repeat 0 7)) by (repeat (apply Forall_cons; [split; [discriminate|reflexivity]|]); apply Forall_nil).
  assert (O7 : Forall word one7) by (repeat (apply Forall_cons; [split; [discriminate|reflexivity]|]); apply Forall_nil).
  split; [exact W9|]. split; [exact V9|]. split; [exact B1|]. split; [|now apply Z.eqb_neq].
  pose proof (fp2mul434_c0_ok s) as H. cbv zeta in H. rewrite A0, A1, B0, B1 in H.
  specialize (H ltac:(right; apply leb_ok; reflexivity) ltac:(right; apply leb_ok; reflexivity) Z7 O7 Z7 W9 ltac:(apply leb_ok; reflexivity)).
  change (rg s RDX) with 3000 in H. clear A0 A1 B0 B1. generalize dependent (run fp2mul434_c0_asm s).
  intros s' (_ & _ & (_ & _ & _ & m & _ & E)).
  assert (EV : valB W (subs 0 t434_px8 nine_p) = W ^ 7 - p434) by reflexivity. rewrite E, EV.
  replace (valB W (repeat 0 7) * valB W (repeat 0 7) + valB W one7 * (W ^ 7 - p434) + m * p434) with (W ^ 7 + (m - 1) * p434).
  - apply Z.mod_add. discriminate.
  - change (valB W (repeat 0 7)) with 0. change (valB W one7) with 1. ring.
Qed.

(** Runs of the multiplications, read off the theorems. *)
Lemma small7 x : 0 <= x < W -> Forall word (x :: repeat 0 6).
Proof. intros H. apply Forall_cons; [exact H|]. repeat (apply Forall_cons; [split; [discriminate|reflexivity]|]). apply Forall_nil. Qed.
Lemma R2_words : Forall word (w_R2 P).
Proof. repeat (apply Forall_cons; [split; [discriminate|reflexivity]|]). apply Forall_nil. Qed.
Lemma run_R2 : let r := wat (mem (run fpmul434_asm (start (w_R2 P) one7))) 3000 0 7 in (W ^ 7 * valB W r) mod p434 = (W ^ 7 * W ^ 7) mod p434.
Proof.
  pose proof (fpmul434_val (start (w_R2 P) one7) R2_words (small7 1 ltac:(split; [discriminate|reflexivity])) ltac:(apply leb_ok; reflexivity)) as (_ & _ & _ & E).
  cbv zeta. generalize dependent (run fpmul434_asm (start (w_R2 P) one7)). intros s' E. etransitivity; [exact E|]. reflexivity.
Qed.
Definition s23 : st := start ([2; 0; 0; 0; 0; 0; 0] ++ [3; 0; 0; 0; 0; 0; 0]) ([4; 0; 0; 0; 0; 0; 0] ++ [5; 0; 0; 0; 0; 0; 0]).
Lemma s23_words : Forall word (wat (mem s23) 1000 0 7 ++ wat (mem s23) 1000 56 7 ++ wat (mem s23) 2000 0 7 ++ wat (mem s23) 2000 56 7).
Proof. repeat apply Forall_cons; try (split; [discriminate|reflexivity]). apply Forall_nil. Qed.
Lemma run_c0 : (W ^ 7 * valB W (wat (mem (run fp2mul434_c0_asm s23)) 3000 0 7)) mod p434 = p434 - 7.
Proof.
  pose proof (fp2mul434_c0_val s23 ltac:(right; apply leb_ok; reflexivity) ltac:(right; apply leb_ok; reflexivity) s23_words ltac:(apply leb_ok; reflexivity) ltac:(apply leb_ok; reflexivity) ltac:(apply ltb_ok; reflexivity))
    as (_ & _ & _ & _ & E).
  cbv zeta in E. change (rg s23 RDX) with 3000 in E. generalize dependent (run fp2mul434_c0_asm s23). intros s' E. etransitivity; [exact E|]. reflexivity.
Qed.
Lemma run_c1 : (W ^ 7 * valB W (wat (mem (run fp2mul434_c1_asm s23)) 3000 0 7)) mod p434 = 22.
Proof.
  pose proof (fp2mul434_c1_val s23 s23_words ltac:(apply leb_ok; reflexivity) ltac:(apply ltb_ok; reflexivity)) as (_ & _ & _ & _ & E).
  cbv zeta in E. change (rg s23 RDX) with 3000 in E. generalize dependent (run fp2mul434_c1_asm s23). intros s' E. etransitivity; [exact E|]. reflexivity.
Qed.
Lemma run_sqr : let s := s23 in
  wat (mem (run fp2sqr434_c0_asm s)) 2000 0 7 = fst (fp2sqr_mont P ([2; 0; 0; 0; 0; 0; 0], [3; 0; 0; 0; 0; 0; 0])) /\
  wat (mem (run fp2sqr434_c1_asm s)) 2000 0 7 = snd (fp2sqr_mont P ([2; 0; 0; 0; 0; 0; 0], [3; 0; 0; 0; 0; 0; 0])).
Proof.
  cbv zeta.
  pose proof (small7 2 ltac:(split; [discriminate|reflexivity])) as H2. pose proof (small7 3 ltac:(split; [discriminate|reflexivity])) as H3.
  split.
  - exact (proj2 (proj2 (fp2sqr434_c0_ok s23 H2 H3 ltac:(right; apply leb_ok; reflexivity) ltac:(apply leb_ok; reflexivity) ltac:(apply ltb_ok; reflexivity)))).
  - exact (proj2 (proj2 (fp2sqr434_c1_ok s23 H2 H3 ltac:(apply leb_ok; reflexivity) ltac:(apply ltb_ok; reflexivity)))).
Qed.
