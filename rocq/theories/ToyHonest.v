(** An honest proof that Verify refuses, over the small prime 2^17 * 3^4 - 1: one repetition, chains of length 1 and 2; the middle curve
    of the left chain has j-invariant 1728, and its canonical model can be reached by two isomorphisms. *)
From Verif Require Import Base BaseP Digits Out Params Fp Wf Poik Hashing HashSpec HashingP Codec CodecSpec Fld FpRep FpMisc FpMiscP FpInst
  Ops Ec Models Proto Sim ModelsSim ProtoSim WordOps FieldOps WordSim ProtoSpec VerifyP Cli CliP Toy ZOps ToyRun.

Definition K_two : pok := mkPok Ptoy2 1 1 2 2 4.
Definition start_two : list Z := [184; 134; 132; 66; 22; 111].
Definition gen_tape_two : tape := some_bytes 100 3.
Definition sec_two : secret := mkSecret [[184; 134; 132; 66; 22; 111]; [226; 93; 20; 191; 49; 147]] [[237; 213; 35; 136; 33; 137]].
Definition olds_two (i : nat) : list Z := repeat 0 (union_size K_two).
Definition inst_tape_two (i : nat) : tape := firstn 16 (some_bytes 60 178) ++ some_bytes 80 3.
Definition prf_two : proof := mkProof [71; 121; 29; 189; 233; 50] [9; 162; 0; 103; 107; 134]
  [mkResp (-1) [50; 18; 83; 254; 6; 31; 151; 87; 127; 241; 235; 124; 138; 61; 12; 249; 78; 68; 0; 0]].
Definition is_false_out (o : out bool) : bool := match o with Ok false => true | _ => false end.
Lemma is_false_out_ok o : is_false_out o = true -> o = Ok false.
Proof. destruct o as [[|]| | | |]; cbn; congruence. Qed.
Lemma two_gen_z : Generate K_two OZ junkz start_two gen_tape_two = Ok (Some sec_two, skipn 88 gen_tape_two).
Proof. vm_cast_no_check (eq_refl (Ok (Some sec_two, skipn 88 gen_tape_two))). Qed.
Lemma two_prove_z : Prove K_two OZ 5 sec_two olds_two inst_tape_two (fun _ => []) = Ok prf_two.
Proof. vm_cast_no_check (eq_refl (Ok prf_two)). Qed.
Lemma two_refused_z : Verify K_two OZ junkz 5 prf_two tp_toy tps_toy = Ok false.
Proof. apply is_false_out_ok. vm_cast_no_check (eq_refl true). Qed.
Lemma elem_start_two : elem_ok Ptoy2 start_two.
Proof. split; [apply digits_check; vm_compute; reflexivity|reflexivity]. Qed.
Lemma wf_prf_two : wf_proof K_two prf_two. Proof. apply wf_check_prf_ok. vm_compute. reflexivity. Qed.
Local Notation OF2 := (field_ops Ptoy2 (HW Ptoy2 good_toy2) (Hp Ptoy2 good_toy2)).
Local Notation junkf := (@mkPt OF2 (o_zero OF2) (o_zero OF2)).
Local Notation zsim := (z_sim Ptoy2 (HW Ptoy2 good_toy2) (Hp Ptoy2 good_toy2)).
Lemma two_gen junk : Generate K_two (word_ops Ptoy2) junk start_two gen_tape_two = Ok (Some sec_two, skipn 88 gen_tape_two).
Proof.
  rewrite (Generate_word K_two good_toy2 rand_toy2 junk junkf _ _ elem_start_two). rewrite <- two_gen_z. symmetry.
  refine (Generate_sim K_two _ _ zsim (z_rand Ptoy2 _ _) _ _ start_two gen_tape_two _). exact I.
Qed.
Lemma two_prove : Prove K_two (word_ops Ptoy2) 5 sec_two olds_two inst_tape_two (fun _ => []) = Ok prf_two.
Proof.
  assert (HD : forall b, forallb (fun x => (0 <=? x) && (x <? 256)) b = true -> length b = 6%nat -> elem_ok Ptoy2 b) by (intros b H1 H2; split; [now apply digits_check|exact H2]).
  rewrite (Prove_word K_two good_toy2 rand_toy2) by first [apply Forall_forall; intros b [<-|[<-|[]]]; apply HD; reflexivity | apply Forall_forall; intros b [<-|[]]; apply HD; reflexivity | cbn; lia].
  rewrite <- two_prove_z. symmetry.
  refine (Prove_sim K_two _ _ zsim (z_rand Ptoy2 _ _) 5 sec_two olds_two inst_tape_two _ _ _); [|cbn; lia]. split; repeat constructor.
Qed.
Lemma two_refused junk : Verify K_two (word_ops Ptoy2) junk 5 prf_two tp_toy tps_toy = Ok false.
Proof.
  pose proof (Verify_word K_two good_toy2 rand_toy2 junk junkf 5 prf_two tp_toy tps_toy wf_prf_two) as E. refine (eq_trans E _). clear E. rewrite <- two_refused_z. symmetry.
  refine (Verify_sim K_two _ _ zsim (z_rand Ptoy2 _ _) _ _ 5 prf_two tp_toy tps_toy _).
  split; [exact I|]. split; [exact I|]. repeat constructor.
Qed.
Lemma two_tapes : (forall i, digits 256 (inst_tape_two i)) /\ (forall i, length (olds_two i) = union_size K_two /\ digits 256 (olds_two i)).
Proof.
  split; intros i; [|split; [reflexivity|]]; apply digits_check; vm_compute; reflexivity.
Qed.
Lemma honest_refused : ~ forall K (HG : good (fpar K)), rand_ok (fpar K) ->
  forall junk a tp0 sec t0 fuel olds tps tps2 prf fuel' tp tps3 b,
  let OW := word_ops (fpar K) in
  elem_ok (fpar K) a -> Generate K OW junk a tp0 = Ok (Some sec, t0) -> Prove K OW fuel sec olds tps tps2 = Ok prf ->
  (forall i, digits 256 (tps i)) -> (forall i, digits 256 (tps2 i)) -> (forall i, length (olds i) = union_size K /\ digits 256 (olds i)) ->
  Verify K OW junk fuel' prf tp tps3 = Ok b -> b = true.
Proof.
  intros H. destruct two_tapes as [T1 T2]. set (junk := @mkPt (word_ops Ptoy2) (o_zero _) (o_zero _)).
  assert (E : false = true); [|discriminate E].
  exact (H K_two good_toy2 rand_toy2 junk _ _ _ _ _ _ _ _ _ _ _ _ _ elem_start_two (two_gen junk) two_prove T1 (fun _ => Forall_nil _) T2 (two_refused junk)).
Qed.
(** The j-invariants along the square of the instance: left, bottom and right chain, and the commitments. *)
Definition square_js (r : out (inst OZ * (list Z * list Z) * tape)) : option (list (list Z) * list (list Z) * list (list Z) * (list Z * list Z)) :=
  match r with
  | Ok (v, c, _) => Some (map (enc_j OZ) (chE OZ (i_left OZ v)), map (enc_j OZ) (chE OZ (i_bottom OZ v)), map (enc_j OZ) (chE OZ (i_right OZ v)), c)
  | _ => None
  end.
Definition square_two := square_js (Instance K_two OZ sec_two (inst_tape_two 0)).
Lemma square_two_ok : square_two =
  Some ([[15; 129; 44; 213; 174; 161]; [192; 6; 0; 0; 0; 0]; [235; 28; 68; 34; 194; 131]],
    [[235; 28; 68; 34; 194; 131]; [166; 75; 97; 137; 12; 16]],
    [[59; 139; 152; 179; 83; 71]; [138; 137; 6; 222; 49; 4]; [166; 75; 97; 137; 12; 16]], ([219; 203], [6; 31])).
Proof. vm_cast_no_check (eq_refl (Some ([[15; 129; 44; 213; 174; 161]; [192; 6; 0; 0; 0; 0]; [235; 28; 68; 34; 194; 131]],
    [[235; 28; 68; 34; 194; 131]; [166; 75; 97; 137; 12; 16]],
    [[59; 139; 152; 179; 83; 71]; [138; 137; 6; 222; 49; 4]; [166; 75; 97; 137; 12; 16]], ([219; 203], [6; 31])))). Qed.
