(** A complete run of the protocol with the small prime 2^17 * 3^4 - 1: an accepted proof with one response of
    each kind. *)
From Verif Require Import Base BaseP Digits Out Params Fp Wf Poik Hashing HashSpec HashingP Codec CodecSpec Fld FpRep FpMisc FpMiscP FpInst
  Ops Ec Models Proto Sim ModelsSim ProtoSim WordOps FieldOps WordSim ProtoSpec VerifyP Cli CliP Toy ZOps.

(** three repetitions, chains of length one, two-byte hashes, four-byte nonces *)
Definition K_toy : pok := mkPok Ptoy2 3 1 1 2 4.
(** bytes of a linear congruential generator *)
Fixpoint some_bytes (n : nat) (s : Z) : list Z :=
  match n with O => [] | S n => let s := (s * 1103515245 + 12345) mod 2 ^ 31 in (s / 65536) mod 256 :: some_bytes n s end.
Definition OZ := z_ops Ptoy2.
Definition junkz : pt OZ := @mkPt OZ (o_zero OZ) (o_zero OZ).
Definition sec_toy : secret := mkSecret [[6; 0; 0; 0; 0; 0]; [18; 205; 151; 45; 132; 12]] [[15; 220; 45; 144; 137; 4]].
(** the proof that Prove makes from [sec_toy] *)
Definition prf_toy : proof := mkProof [0; 0; 0; 216; 16; 5] [237; 50; 10; 210; 123; 149]
  [mkResp (-1) [226; 122; 214; 14; 106; 144; 85; 75; 60; 11; 146; 88; 0; 0; 0; 0; 0; 0; 0; 0];
   mkResp 0 [13; 198; 211; 112; 239; 32; 162; 106; 152; 59; 46; 127; 79; 30; 67; 93; 93; 30; 147; 26];
   mkResp 1 [92; 196; 213; 225; 180; 120; 50; 241; 148; 110; 1; 82; 0; 0; 0; 0; 0; 0; 0; 0]].
(** the same with another encoding of the first curve *)
Definition prf_toy2 : proof := mkProof [255; 255; 161; 216; 16; 5] (p_E1 prf_toy) (p_resp prf_toy).
Definition tp_toy : tape := some_bytes 200 5.
Definition tps_toy (i : nat) : tape := some_bytes 100 (Z.of_nat i + 177).
Definition is_true_out (o : out bool) : bool := match o with Ok b => b | _ => false end.
Lemma is_true_out_ok o : is_true_out o = true -> o = Ok true.
Proof. destruct o as [[|]| | | |]; cbn; congruence. Qed.
Lemma toy_accepted_z : Verify K_toy OZ junkz 5 prf_toy tp_toy tps_toy = Ok true.
Proof. apply is_true_out_ok. vm_cast_no_check (eq_refl true). Qed.
Lemma digits_check l : forallb (fun x => (0 <=? x) && (x <? 256)) l = true -> digits 256 l.
Proof.
  intros H. apply Forall_forall. intros x Hx. apply (proj1 (forallb_forall _ _) H) in Hx. apply andb_prop in Hx as [H1 H2].
  apply Z.leb_le in H1. apply Z.ltb_lt in H2. lia.
Qed.
Definition wf_check_prf (K : pok) (p : proof) : bool :=
  let el b := (length b =? sidh_bytes K)%nat && forallb (fun x => (0 <=? x) && (x <? 256)) b in
  el (p_E0 p) && el (p_E1 p) && (length (p_resp p) =? reps K)%nat &&
  forallb (fun r => (length (r_mem r) =? union_size K)%nat && forallb (fun x => (0 <=? x) && (x <? 256)) (r_mem r)) (p_resp p).
Lemma wf_check_prf_ok K p : wf_check_prf K p = true -> wf_proof K p.
Proof.
  unfold wf_check_prf. intros H. repeat match goal with H : _ && _ = true |- _ => apply andb_prop in H as [? ?] end.
  repeat match goal with H : (_ =? _)%nat = true |- _ => apply Nat.eqb_eq in H end.
  split; [|split; [|split]]; auto; try (split; auto using digits_check).
  apply Forall_forall. intros r Hr. match goal with H : forallb _ (p_resp p) = true |- _ => apply (proj1 (forallb_forall _ _) H) in Hr end.
  apply andb_prop in Hr as [H1' H2']. apply Nat.eqb_eq in H1'. split; auto using digits_check.
Qed.
Lemma wf_prf_toy : wf_proof K_toy prf_toy. Proof. apply wf_check_prf_ok. vm_compute. reflexivity. Qed.
Lemma wf_prf_toy2 : wf_proof K_toy prf_toy2. Proof. apply wf_check_prf_ok. vm_compute. reflexivity. Qed.
Lemma toy_accepted junk : Verify K_toy (word_ops Ptoy2) junk 5 prf_toy tp_toy tps_toy = Ok true.
Proof.
  pose proof (Verify_word K_toy good_toy2 rand_toy2 junk (@mkPt (field_ops Ptoy2 (HW Ptoy2 good_toy2) (Hp Ptoy2 good_toy2)) (o_zero _) (o_zero _))
    5 prf_toy tp_toy tps_toy wf_prf_toy) as E. refine (eq_trans E _). clear E.
  rewrite <- toy_accepted_z. symmetry.
  refine (Verify_sim K_toy _ _ (z_sim Ptoy2 (HW Ptoy2 good_toy2) (Hp Ptoy2 good_toy2)) (z_rand Ptoy2 _ _) _ _ 5 prf_toy tp_toy tps_toy _).
  split; [exact I|]. split; [exact I|]. repeat constructor.
Qed.
Lemma toy_equiv : equiv_proof K_toy prf_toy prf_toy2.
Proof. split; [vm_compute; reflexivity|]. split; [vm_compute; reflexivity|]. apply equiv_responses_refl. Qed.
Lemma toy2_accepted junk : Verify K_toy (word_ops Ptoy2) junk 5 prf_toy2 tp_toy tps_toy = Ok true.
Proof.
  refine (eq_trans _ (toy_accepted junk)). symmetry.
  exact (Verify_equiv K_toy good_toy2 rand_toy2 junk junk 5 prf_toy prf_toy2 tp_toy tps_toy wf_prf_toy wf_prf_toy2 toy_equiv).
Qed.
Lemma toy_ne : p_E0 prf_toy <> p_E0 prf_toy2. Proof. discriminate. Qed.
Lemma toy_malleable junk : prf_toy <> prf_toy2 /\ equiv_proof K_toy prf_toy prf_toy2 /\
  Verify K_toy (word_ops Ptoy2) junk 5 prf_toy tp_toy tps_toy = Ok true /\
  Verify K_toy (word_ops Ptoy2) junk 5 prf_toy2 tp_toy tps_toy = Ok true /\
  fp2_text K_toy (p_E0 prf_toy) <> fp2_text K_toy (p_E0 prf_toy2).
Proof.
  refine (conj _ (conj toy_equiv (conj (toy_accepted junk) (conj (toy2_accepted junk) _)))); [discriminate|].
  intros E. assert (H : nth 0 (fp2_text K_toy (p_E0 prf_toy)) 0 = nth 0 (fp2_text K_toy (p_E0 prf_toy2)) 0) by (rewrite E; reflexivity).
  revert H. vm_compute. discriminate.
Qed.
Lemma toy_retagged junk :
  let prf := mkProof (p_E0 prf_toy) (p_E1 prf_toy) (map (fun r => mkResp (r_tag r + 256) (r_mem r)) (p_resp prf_toy)) in
  map r_tag (p_resp prf) = [255; 256; 257] /\ Verify K_toy (word_ops Ptoy2) junk 5 prf tp_toy tps_toy = Ok true.
Proof.
  cbv zeta. split; [reflexivity|]. refine (eq_trans _ (toy_accepted junk)).
  set (prf := mkProof (p_E0 prf_toy) (p_E1 prf_toy) _).
  assert (HF : Forall2 (fun r s => r_mem s = r_mem r /\ r_tag s mod 256 = r_tag r mod 256) (p_resp prf_toy) (p_resp prf)) by (repeat constructor).
  pose proof (retagged K_toy good_toy2 rand_toy2 junk 5 prf_toy prf tp_toy tps_toy wf_prf_toy eq_refl eq_refl HF) as [_ E]. exact E.
Qed.
Lemma toy_cli junk prf0 : wf_proof K_toy prf0 ->
  main_verify K_toy (word_ops Ptoy2) junk prf0 (proof_text K_toy prf_toy) true (fun _ => None) 5 tp_toy tps_toy =
    Ok (0, fp2_text K_toy (p_E0 prf_toy) ++ fp2_text K_toy (p_E1 prf_toy)) /\
  main_verify K_toy (word_ops Ptoy2) junk prf0 [] true (fun _ => None) 5 tp_toy tps_toy = Ok (-1, []).
Proof.
  intros H0. split; [|reflexivity].
  destruct (read_back K_toy good_toy2 rand_toy2 prf_toy prf0 [] junk junk 5 tp_toy tps_toy ltac:(cbn; lia) ltac:(cbn; lia) wf_prf_toy
    ltac:(repeat constructor; unfold legal_tag; cbn; lia) H0) as (q & EP & E0 & E1 & EV). rewrite app_nil_r in EP.
  destruct (main_verify_total K_toy (word_ops Ptoy2) junk prf0 _ (fun _ => None) 5 tp_toy tps_toy q _ EP (eq_trans EV (toy_accepted junk))) as (c & text & EM & _ & HN).
  destruct (HN (fun _ => eq_refl)) as [-> ->]. rewrite E0, E1 in EM. exact EM.
Qed.
Lemma rand_ok_configurations P : In P [P434 T64; P503 T64; P610 T64; P751 T64; P434 T32; P503 T32] -> good P /\ rand_ok P.
Proof.
  intros H. split.
  - cbn [In] in H. repeat destruct H as [<-|H]; try contradiction; auto using good_434, good_503, good_610, good_751.
  - cbn [In] in H. destruct H as [E|[E|[E|[E|[E|[E|[]]]]]]]; [..|apply rand_ok_32; cbn [In]; auto|apply rand_ok_32; cbn [In]; auto];
      apply rand_ok_64; cbn [In]; auto.
Qed.
Lemma room_configurations K : In K [K434 T64; K503 T64; K610 T64; K751 T64; K434 T32; K503 T32] ->
  good (fpar K) /\ rand_ok (fpar K) /\ 2 * par_p (fpar K) <= 256 ^ Z.of_nat (fp_bytes (fpar K)).
Proof.
  intros H. assert (HP : In (fpar K) [P434 T64; P503 T64; P610 T64; P751 T64; P434 T32; P503 T32]).
  { cbn [In] in H |- *. intuition (subst; auto 10). }
  destruct (rand_ok_configurations _ HP) as [G R]. split; [exact G|]. split; [exact R|].
  clear - H. cbn [In] in H. repeat destruct H as [<-|H]; try contradiction; vm_compute; discriminate.
Qed.
