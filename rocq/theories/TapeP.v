(** The random functions return a rest of the tape they were given: bytes stay bytes. *)
From Verif Require Import Base BaseP Digits DigitsP Out Params Fp Poik Hashing Codec Ops Ec Models Proto.
Set Bullet Behavior "Strict Subproofs".

Section TP.
Variable K : pok.
Variable O : fops.
Notation P := (fpar K).
Variable junk : pt O.
Definition rest_of (t' t : tape) : Prop := exists pre, t = pre ++ t'.
Hypothesis Hr : forall tp x tp', o_rand O tp = Ok (x, tp') -> rest_of tp' tp.
Lemma rest_refl t : rest_of t t. Proof. exists []. reflexivity. Qed.
Lemma rest_trans a b c : rest_of a b -> rest_of b c -> rest_of a c.
Proof. intros (p & ->) (q & ->). exists (q ++ p). now rewrite app_assoc. Qed.
Lemma rest_digits t' t : rest_of t' t -> digits 256 t -> digits 256 t'.
Proof. intros (p & ->) H. apply Forall_app in H. apply H. Qed.
Lemma ok_snd {T U} (a a' : T) (b b' : U) : Ok (a, b) = Ok (a', b') -> b = b'. Proof. congruence. Qed.
Lemma random_point_rest A tp R tp' : random_point O A tp = Ok (R, tp') -> rest_of tp' tp.
Proof.
  unfold random_point. generalize (S (length tp)). intros f. revert tp. induction f as [|f IH]; intros tp; cbn [random_point_loop]; [discriminate|].
  destruct (o_rand O tp) as [[x t1]| | | |] eqn:E; cbn [bind]; try discriminate. apply Hr in E.
  destruct (fp2sqrt _ _ _) as [y [|]]; intros H; [apply ok_snd in H; subst; auto|]. apply IH in H. eapply rest_trans; eauto.
Qed.
Lemma rpwo_pick_rest e2 e3 A l2 n : forall tp R tp', rpwo_pick O e2 e3 n l2 A tp = Ok (R, tp') -> rest_of tp' tp.
Proof.
  induction n as [|n IH]; intros tp R tp'; cbn [rpwo_pick]; [discriminate|].
  destruct (rp_consts O A) as [[a b] c]. destruct (random_point O A tp) as [[R1 t1]| | | |] eqn:E; cbn [bind]; try discriminate.
  apply random_point_rest in E. destruct (is0 O _); intros H; [|apply ok_snd in H; subst; auto]. apply IH in H. eapply rest_trans; eauto.
Qed.
Lemma rpwo_rest e2 e3 A l2 tp R e Q tp' : random_point_with_order O e2 e3 A l2 tp = Ok (R, e, Q, tp') -> rest_of tp' tp.
Proof.
  unfold random_point_with_order.
  destruct (rpwo_pick _ _ _ _ _ _ _) as [[R0 t1]| | | |] eqn:E; cbn [bind]; try discriminate.
  destruct (rpwo_order _ _ _ _ _ _) as [[e0 Q0]| | | |]; cbn [bind]; try discriminate. intros H. apply ok_snd in H. subst t1.
  exact (rpwo_pick_rest _ _ _ _ _ _ _ _ E).
Qed.
Lemma back_rest A R f : forall tp b tp', back_B_loop O P f A R tp = Ok (b, tp') -> rest_of tp' tp.
Proof.
  induction f as [|f IH]; intros tp b tp'; cbn [back_B_loop]; [discriminate|].
  destruct (random_point_with_order O (e2 P) (e3 P) A false tp) as [[[[R0 e] b0] t1]| | | |] eqn:ER; cbn [bind]; try discriminate.
  apply rpwo_rest in ER. destruct (point_equal O b0 R); intros H; [|apply ok_snd in H; subst; auto]. apply IH in H. eapply rest_trans; eauto.
Qed.
Lemma Isogeny_B_rest E Kp Q wb tp o tp' : Isogeny_B O P E Kp Q wb tp = Ok (o, tp') -> rest_of tp' tp.
Proof.
  unfold Isogeny_B. destruct (AC_to_AAC24 O E) as [[a b] c]. destruct (_ || _); [intros H; apply ok_snd in H; subst; apply rest_refl|].
  match goal with |- context [traverse ?x1 ?x2 ?x3 ?x4 ?x5 ?x6 ?x7 ?x8 ?x9 ?x10 ?x11] => destruct (traverse x1 x2 x3 x4 x5 x6 x7 x8 x9 x10 x11) as [[[c1 R1] Q1]| | | |] end; cbn [bind]; try discriminate.
  destruct wb; cbn [bind].
  - destruct (back_B_loop _ _ _ _ _ _) as [[b1 t1]| | | |] eqn:EB; cbn [bind]; try discriminate. apply back_rest in EB.
    destruct (get_3_isog O R1) as [[a1 a2] co]. intros H. apply ok_snd in H. subst. auto.
  - destruct (get_3_isog O R1) as [[a1 a2] co]. intros H. apply ok_snd in H. subst. apply rest_refl.
Qed.
Lemma Random_Point_rest E l2 av tp R tp' : Random_Point_AB O P E l2 av tp = Ok (R, tp') -> rest_of tp' tp.
Proof.
  unfold Random_Point_AB. generalize (fp2div O (cA E) (cC E)). intros A. generalize n9999. intros k. revert tp. induction k as [|k IH]; intros tp; cbn [Random_Point_loop]; [discriminate|].
  destruct (random_point_with_order O (e2 P) (e3 P) A l2 tp) as [[[[R0 e] b0] t1]| | | |] eqn:ER; cbn [bind]; try discriminate. apply rpwo_rest in ER.
  destruct (Nat.ltb _ _); [intros H; apply IH in H; eapply rest_trans; eauto|].
  destruct (match av with Some a => point_equal O b0 a | None => false end); intros H; [apply IH in H; eapply rest_trans; eauto|]. apply ok_snd in H. subst. auto.
Qed.
Lemma chain_B_rest k : forall back E tp Es Ps tp', random_chain_B K O k back E tp = Ok (Es, Ps, tp') -> rest_of tp' tp.
Proof.
  induction k as [|k IH]; intros back E tp Es Ps tp'; cbn [random_chain_B]; [intros H; apply ok_snd in H; subst; apply rest_refl|].
  destruct (Random_Point_AB O P E false back tp) as [[R t1]| | | |] eqn:ER; cbn [bind]; try discriminate. apply Random_Point_rest in ER.
  destruct (Isogeny_B O P E R None true t1) as [[[[[E1 Q1] bk]|] t2]| | | |] eqn:EI; cbn [bind]; try discriminate. apply Isogeny_B_rest in EI.
  destruct (random_chain_B K O k bk E1 t2) as [[[Es1 Ps1] t3]| | | |] eqn:EC; cbn [bind]; try discriminate. apply IH in EC.
  intros H. apply ok_snd in H. subst. eauto using rest_trans.
Qed.
Lemma take_ok n tp b tp' : take_bytes n tp = Ok (b, tp') -> length b = n /\ tp = b ++ tp'.
Proof.
  unfold take_bytes. destruct (Nat.ltb_spec (length tp) n) as [|H]; [discriminate|]. intros E. assert (b = firstn n tp) by congruence. assert (tp' = skipn n tp) by congruence. subst.
  split; [apply firstn_length_le; lia|symmetry; apply firstn_skipn].
Qed.
Lemma Instance_bytes sec tp v c tp' : Instance K O sec tp = Ok (v, c, tp') -> digits 256 tp ->
  length (i_r2 _ v) = hide_bytes K /\ length (i_r3 _ v) = hide_bytes K /\ digits 256 (i_r2 _ v) /\ digits 256 (i_r3 _ v) /\
  c = (hash_hiding K (i_r2 _ v) (enc_j O (i_E2 _ v)), hash_hiding K (i_r3 _ v) (enc_j O (i_E3 _ v))).
Proof.
  unfold Instance. cbv zeta. destruct (map (unpack_curve O) (sE sec)) as [|E0 bE] eqn:EB; [discriminate|]. rewrite <- EB. clear EB.
  unfold Random_Isogeny_Chain_B. destruct (random_chain_B K O (height K) None E0 tp) as [[[Es Ps] t1]| | | |] eqn:EC; cbn [bind]; try discriminate. apply chain_B_rest in EC.
  destruct (square_rows K O _ _ _) as [[[b1 b2] rgt]| | | |]; cbn [bind]; try discriminate.
  destruct (rev b1) as [|El ?]; [discriminate|]. destruct (rev b2) as [|Pl ?]; [discriminate|]. destruct (rev rgt) as [|[Er Pr] ?]; [discriminate|]. destruct (rev (chE _ _)) as [|E2 ?]; [discriminate|].
  destruct (Isogeny_A O P El Pl None) as [a| | | |]; cbn [bind]; try discriminate.
  destruct (Isogeny_B O P Er Pr None false t1) as [[b t2]| | | |] eqn:EI; cbn [bind]; try discriminate. apply Isogeny_B_rest in EI.
  destruct a as [[Ea Qa]|]; [|discriminate]. destruct b as [[[Eb Qb] bk]|]; [|discriminate].
  destruct (take_bytes (hide_bytes K) t2) as [[r2 t3]| | | |] eqn:E2'; cbn [bind]; try discriminate.
  destruct (take_bytes (hide_bytes K) t3) as [[r3 t4]| | | |] eqn:E3; cbn [bind]; try discriminate.
  apply take_ok in E2' as [L2 ->]. apply take_ok in E3 as [L3 ->]. intros H D. injection H as <- <- <-. cbn [i_r2 i_r3 i_E2 i_E3].
  assert (D2 : digits 256 (r2 ++ r3 ++ t4)) by (eapply rest_digits; [|exact D]; eapply rest_trans; eauto).
  apply Forall_app in D2 as [D2 D3]. apply Forall_app in D3 as [D3 _]. auto.
Qed.
End TP.
