(** A second toy parameter set, used only in Examples: p = 2^17 * 3^4 - 1 = 10616831 with 16-bit digits.  It
    satisfies every condition the theorems put on a parameter set, including the range of fprand
    ([rand_ok]).  Not part of /repo. *)
From Coq Require Import Znumtheory.
From Bignums Require Import BigZ.
From Verif Require Import Base BaseP Digits DigitsP Params Fp FpMisc Wf Primality FpInst Poik WordSim.
Open Scope Z_scope.

Definition Ptoy2 : params := {|
  radix := 16; nwords := 2; zwords := 1;
  w_p := [ 65535; 161 ]; w_px2 := [ 65534; 323 ]; w_px4 := [ 65532; 647 ]; w_pp1 := [ 0; 162 ];
  w_R2 := [ 19637; 136 ]; w_one := [ 404; 88 ];
  nbits := 24; e2 := 17; e3 := 4; max_alice := 8; max_bob := 4; max_int_alice := 4; max_int_bob := 3;
  strat_alice := [4; 2; 1; 1; 2; 1; 1]%nat; strat_bob := [2; 1; 1]%nat;
  inv_size := 1; inv_table := []; inv_steps := [(2, None); (5, None); (1, None); (1, None); (1, None); (1, None); (1, None); (1, None); (1, None); (1, None); (1, None); (1, None); (1, None); (1, None); (1, None); (1, None)]%nat; inv_loop := (0%nat, []);
  obob_bits := 7; mask_alice := 0x01; mask_bob := 0x3F; msg_bytes := 3;
  w_Agen := []; w_Bgen := [];
  poik_reps := 3; poik_width := 2; poik_height := 2; poik_hash := 32; poik_hide := 64 |}.

Definition bptoy2 : bigZ := BigZ.sub (BigZ.mul (BigZ.pow 2%bigZ 17%bigZ) (BigZ.pow 3%bigZ 4%bigZ)) 1%bigZ.
Definition bgtoy2 : bcx := (4591063%bigZ, 6312710%bigZ).
Lemma bptoy2_val : BigZ.to_Z bptoy2 + 1 = 2 ^ 17 * 3 ^ 4.
Proof. unfold bptoy2. rewrite BigZ.spec_sub, BigZ.spec_mul, !BigZ.spec_pow. vm_compute. reflexivity. Qed.
Lemma bcheck_toy2 : bcheck bptoy2 17 4 bgtoy2 = true.
Proof. vm_cast_no_check (eq_refl true). Qed.
Lemma prime_toy2 : prime (2 ^ 17 * 3 ^ 4 - 1).
Proof.
  replace (2 ^ 17 * 3 ^ 4 - 1) with (BigZ.to_Z bptoy2) by (pose proof bptoy2_val; lia).
  apply (bcheck_prime bptoy2 17 4 bgtoy2); try lia; [exact bptoy2_val|exact bcheck_toy2].
Qed.
Lemma good_toy2 : good Ptoy2.
Proof.
  split; [apply wf_check_Wf; vm_compute; reflexivity|].
  replace (par_p Ptoy2) with (2 ^ 17 * 3 ^ 4 - 1) by (vm_compute; reflexivity). exact prime_toy2.
Qed.
Definition KT : pok := mkPok Ptoy2 3 2 2 32 64.
Lemma rand_toy2 : rand_ok Ptoy2.
Proof.
  intros b L D. destruct (fprand_val Ptoy2 good_toy2 b D L) as [O V]. split; auto.
  eapply Z.le_lt_trans; [exact V|]. vm_compute. reflexivity.
Qed.
Lemma rand_ok_64 P : In P [P434 T64; P503 T64; P610 T64; P751 T64] -> rand_ok P.
Proof.
  intros H b L D. destruct (fprand_range_64 P H b D L) as [O V]. split; auto.
  assert (0 < par_p P); [|lia]. destruct H as [<-|[<-|[<-|[<-|[]]]]]; vm_compute; reflexivity.
Qed.
Lemma rand_ok_32 P : In P [P434 T32; P503 T32] -> rand_ok P.
Proof.
  intros H b L D. destruct (fprand_range_32 P H b D L) as [O V]. split; auto.
  assert (0 < par_p P); [|lia]. destruct H as [<-|[<-|[]]]; vm_compute; reflexivity.
Qed.
