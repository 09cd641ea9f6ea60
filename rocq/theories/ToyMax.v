(** Curves over GF(p^2), p = 2^17 * 3^4 - 1, with and without (p+1)^2 points, found by running the curve check. *)
From Verif Require Import Base BaseP Digits Out Params Fp Wf Poik Hashing Codec CodecSpec Fld FpRep FpMisc FpMiscP FpInst
  Ops Ec Models Proto Sim ModelsSim ProtoSim WordOps FieldOps WordSim CurveSpec ModelSpec OrderSpec ProtoSpec WalkSpec WordCurve WordModels WordCheck XIsog WordIsog ChainP WordWalk SupSpec WordMax WordVerify Toy ZOps ToyRun.

Definition six : list Z := [6; 0; 0; 0; 0; 0].
Definition one : list Z := [1; 0; 0; 0; 0; 0].
Definition said (o : out (bool * tape)) : option bool := match o with Ok (b, _) => Some b | _ => None end.
Lemma said_ok o b : said o = Some b -> exists t, o = Ok (b, t).
Proof. destruct o as [[b' t]| | | |]; cbn [said]; intros H; try discriminate. injection H as ->. now exists t. Qed.
Lemma six_z : said (check_packed K_toy OZ junkz six tp_toy) = Some true. Proof. vm_cast_no_check (eq_refl (Some true)). Qed.
Lemma one_z : said (check_packed K_toy OZ junkz one tp_toy) = Some false. Proof. vm_cast_no_check (eq_refl (Some false)). Qed.
Local Notation OF2 := (field_ops Ptoy2 (HW Ptoy2 good_toy2) (Hp Ptoy2 good_toy2)).
Local Notation junkf := (@mkPt OF2 (k0 : GF Ptoy2 good_toy2) (k0 : GF Ptoy2 good_toy2)).
Lemma said_rel o o' : out_rel (tprel eq) o o' -> said o = said o'.
Proof. intros H. destruct H as [[x t] [y t'] [H1 H2]| | | |]; auto. cbn [fst snd] in H1. subst y. reflexivity. Qed.
Lemma said_word junk a tp : elem_ok Ptoy2 a -> said (check_packed K_toy (word_ops Ptoy2) junk a tp) = said (check_packed K_toy OZ junkz a tp).
Proof.
  intros Ha. refine (eq_trans (f_equal said (check_word K_toy good_toy2 rand_toy2 junk a tp Ha)) _).
  symmetry. exact (said_rel _ _ (check_packed_sim K_toy _ _ (z_sim Ptoy2 (HW Ptoy2 good_toy2) (Hp Ptoy2 good_toy2)) (z_rand Ptoy2 _ _) junkz junkf a tp I)).
Qed.
Lemma elem_six : elem_ok Ptoy2 six. Proof. split; [apply digits_check; vm_compute; reflexivity|reflexivity]. Qed.
Lemma elem_one : elem_ok Ptoy2 one. Proof. split; [apply digits_check; vm_compute; reflexivity|reflexivity]. Qed.
Lemma toy_strat : strat_good Ptoy2. Proof. unfold strat_good. repeat split; vm_compute; try reflexivity; lia. Qed.
Lemma toy_exps : exps32 Ptoy2. Proof. split; reflexivity. Qed.
Local Notation value := (valueP Ptoy2 good_toy2).
Lemma six_max : maximalP Ptoy2 good_toy2 (value six).
Proof.
  destruct (said_ok _ _ (eq_trans (said_word (@mkPt (word_ops Ptoy2) (o_zero _) (o_zero _)) six tp_toy elem_six) six_z)) as [t E].
  exact (proj1 (check_packed_exact K_toy good_toy2 rand_toy2 toy_exps _ six tp_toy true t elem_six E) eq_refl).
Qed.
Lemma one_not : ~ maximalP Ptoy2 good_toy2 (value one).
Proof.
  destruct (said_ok _ _ (eq_trans (said_word (@mkPt (word_ops Ptoy2) (o_zero _) (o_zero _)) one tp_toy elem_one) one_z)) as [t E].
  intros M. pose proof (proj2 (check_packed_exact K_toy good_toy2 rand_toy2 toy_exps _ one tp_toy false t elem_one E) M). discriminate.
Qed.
Lemma six_points : exists l, all_points (value six) k1 l /\ Z.of_nat (length l) = 112717121716224.
Proof.
  destruct six_max as (_ & l & Hl & L). exists l. split; [exact Hl|]. rewrite L, Nat2Z.inj_mul, Nat2Z.inj_add, Z2Nat.id by (vm_compute; discriminate). vm_compute. reflexivity.
Qed.
