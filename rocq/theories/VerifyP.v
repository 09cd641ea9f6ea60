(** Proofs about Verify: what it depends on. *)
From Coq Require Import Znumtheory.
From Verif Require Import Base BaseP Digits DigitsP Out Params Fp Wf Poik Hashing HashSpec HashingP Codec CodecSpec CodecP CodecThm CodecMore Fld FpRep FpMisc FpMiscP FpInst
  Ops Ec Models Proto Sim ModelsSim ProtoSim WordOps FieldOps WordSim ProtoSpec.
Set Bullet Behavior "Strict Subproofs".

Lemma int8_eq t : to_int8 t = int8 t.
Proof.
  unfold to_int8, int8. pose proof (Z.mod_pos_bound t 256 ltac:(lia)).
  rewrite <- (Z.add_mod_idemp_l t 128 256) by lia.
  destruct (Z.ltb_spec (t mod 256) 128); [rewrite Z.mod_small by lia; lia|].
  replace (t mod 256 + 128) with ((t mod 256 - 128) + 1 * 256) by lia. rewrite Z.mod_add, Z.mod_small by lia. lia.
Qed.
Lemma int8_mod t s : t mod 256 = s mod 256 -> int8 t = int8 s.
Proof. unfold int8. now intros ->. Qed.

Section Dep.
Variable K : pok.
Variable O : fops.
Variable junk : pt O.
Notation P := (fpar K).
Definition same_dec (a b : list Z) : Prop := o_dec O a = o_dec O b.
Lemma check_packed_dep a b tp : same_dec a b -> check_packed K O junk a tp = check_packed K O junk b tp.
Proof. unfold check_packed, unpack_curve. now intros ->. Qed.
Lemma chain_A_dep xs ys : Forall2 same_dec xs ys -> forall E b, chain_A_loop K O E b xs = chain_A_loop K O E b ys.
Proof.
  induction 1 as [|x y xs ys H _ IH]; intros E b; cbn [chain_A_loop]; auto. unfold unpack_point. rewrite H.
  destruct (to_canonical O E b) as [[E1 b1]| | | |]; cbn [bind]; auto.
  destruct (Isogeny_A _ _ _ _ _) as [[[E2 [q|]]|]| | | |]; cbn [bind]; auto.
Qed.
Lemma chain_B_dep xs ys : Forall2 same_dec xs ys -> forall E b tp, chain_B_loop K O E b xs tp = chain_B_loop K O E b ys tp.
Proof.
  induction 1 as [|x y xs ys H _ IH]; intros E b tp; cbn [chain_B_loop]; auto. unfold unpack_point. rewrite H.
  destruct (to_canonical O E b) as [[E1 b1]| | | |]; cbn [bind]; auto.
  destruct (Isogeny_B _ _ _ _ _ _ _) as [[[[[E2 [q|]] z]|] t]| | | |]; cbn [bind]; auto.
Qed.
Lemma Unpack_A_dep a b xs ys tp : same_dec a b -> Forall2 same_dec xs ys ->
  Unpack_Chain_A K O junk a xs tp = Unpack_Chain_A K O junk b ys tp.
Proof.
  intros H Hx. unfold Unpack_Chain_A. rewrite (check_packed_dep a b) by auto.
  destruct (check_packed _ _ _ _ _) as [[c t]| | | |]; cbn [bind]; auto.
  destruct Hx as [|x y xs ys Hx Hxs]; auto. unfold unpack_curve, unpack_point. rewrite H, Hx.
  destruct (Isogeny_A _ _ _ _ _) as [[[E2 q]|]| | | |]; cbn [bind]; auto.
  now rewrite (chain_A_dep xs ys).
Qed.
Lemma Unpack_B_dep a b xs ys tp : same_dec a b -> Forall2 same_dec xs ys ->
  Unpack_Chain_B K O junk a xs tp = Unpack_Chain_B K O junk b ys tp.
Proof.
  intros H Hx. unfold Unpack_Chain_B. rewrite (check_packed_dep a b) by auto.
  destruct (check_packed _ _ _ _ _) as [[c t]| | | |]; cbn [bind]; auto.
  destruct Hx as [|x y xs ys Hx Hxs]; unfold unpack_curve, unpack_point; rewrite H; auto. rewrite Hx.
  destruct (Isogeny_B _ _ _ _ _ _ _) as [[[[[E2 q] [z|]]|] t']| | | |]; cbn [bind]; auto.
  now rewrite (chain_B_dep xs ys).
Qed.
Lemma map_dep (f g : nat -> list Z) (R : list Z -> list Z -> Prop) n : (forall i, (i < n)%nat -> R (f i) (g i)) ->
  Forall2 R (map f (seq 0 n)) (map g (seq 0 n)).
Proof.
  intros H. assert (G : forall m k, (forall i, (k <= i < k + m)%nat -> R (f i) (g i)) -> Forall2 R (map f (seq k m)) (map g (seq k m))).
  { induction m; intros k Hk; cbn; constructor; [apply Hk; lia|apply IHm; intros; apply Hk; lia]. }
  apply G. intros; apply H; lia.
Qed.
Hypothesis HD : forall a b, same_value P a b -> same_dec a b.
Lemma enc_j_dep a b : same_dec a b -> enc_j O (unpack_curve O a) = enc_j O (unpack_curve O b).
Proof. unfold unpack_curve. now intros ->. Qed.
Lemma Unpack_Response_dep p q r s tp : same_value P (p_E0 p) (p_E0 q) -> same_value P (p_E1 p) (p_E1 q) -> equiv_response K r s ->
  Unpack_Response K O junk p r tp = Unpack_Response K O junk q s tp.
Proof.
  intros H0 H1 [Ht H]. unfold Unpack_Response. rewrite !int8_eq, <- (int8_mod _ _ Ht). cbv zeta.
  destruct (Z.eqb_spec (int8 (r_tag r)) RESP_LEFT) as [E|N].
  { rewrite E in H. destruct H as (A & B & C). rewrite A, B.
    rewrite (Unpack_B_dep (p_E0 p) (p_E0 q) (left_xs K r) (left_xs K s)); auto. apply map_dep. auto. }
  destruct (Z.eqb_spec (int8 (r_tag r)) RESP_BOTTOM) as [E|N0].
  { rewrite E in H. destruct H as (A & B & C & D). rewrite A, B.
    rewrite (check_packed_dep (bottom_E2 K r) (bottom_E2 K s)) by auto.
    destruct (check_packed _ _ _ _ _) as [[c t]| | | |]; cbn [bind]; auto. destruct c; auto.
    rewrite (Unpack_A_dep (bottom_E2 K r) (bottom_E2 K s) (bottom_xs K r) (bottom_xs K s)); auto; [|apply map_dep; auto].
    now rewrite (enc_j_dep (bottom_E2 K r) (bottom_E2 K s)) by auto. }
  destruct (Z.eqb_spec (int8 (r_tag r)) RESP_RIGHT) as [E|N1]; auto.
  rewrite E in H. destruct H as (A & B & C). rewrite A, B.
  rewrite (Unpack_B_dep (p_E1 p) (p_E1 q) (right_xs K r) (right_xs K s)); auto. apply map_dep. auto.
Qed.
Lemma responses_dep p q rs ss tps : same_value P (p_E0 p) (p_E0 q) -> same_value P (p_E1 p) (p_E1 q) ->
  Forall2 (equiv_response K) rs ss -> forall i, responses K O junk p tps i rs = responses K O junk q tps i ss.
Proof.
  intros H0 H1. induction 1 as [|r s rs ss H _ IH]; intros i; cbn [responses]; auto.
  rewrite (Unpack_Response_dep p q r s) by auto. destruct (Unpack_Response _ _ _ _ _ _) as [[[c|] t]| | | |]; cbn [bind]; auto.
  now rewrite IH.
Qed.
Lemma Verify_dep fuel p q tp tps : equiv_proof K p q -> Verify K O junk fuel p tp tps = Verify K O junk fuel q tp tps.
Proof.
  intros (H0 & H1 & H). unfold Verify. rewrite (check_packed_dep (p_E0 p) (p_E0 q)) by auto.
  destruct (check_packed _ _ _ _ _) as [[c t]| | | |]; cbn [bind]; [|reflexivity..]. destruct (negb c); [reflexivity|].
  rewrite (check_packed_dep (p_E1 p) (p_E1 q)) by auto.
  destruct (check_packed _ _ _ _ _) as [[c' t']| | | |]; cbn [bind]; [|reflexivity..]. destruct (negb c'); [reflexivity|].
  rewrite (responses_dep p q _ _ _ H0 H1 H).
  destruct (responses _ _ _ _ _ _ _) as [[hs|]| | | |]; cbn [bind]; [|reflexivity..].
  rewrite (enc_j_dep (p_E0 p) (p_E0 q)), (enc_j_dep (p_E1 p) (p_E1 q)) by auto.
  assert (E : map (fun r => to_int8 (r_tag r)) (p_resp p) = map (fun r => to_int8 (r_tag r)) (p_resp q)).
  { clear - H. induction H as [|r s rs ss [Ht _] _ IH]; cbn; auto. rewrite IH, !int8_eq. f_equal. now apply int8_mod. }
  now rewrite E.
Qed.

(** An accepted proof: the truncated tags are the challenge, hence in {-1, 0, 1}. *)
Lemma responses_legal p tps rs : forall i hs, responses K O junk p tps i rs = Ok (Some hs) -> Forall (fun r => legal_tag (int8 (r_tag r))) rs.
Proof.
  induction rs as [|r rs IH]; intros i hs; cbn [responses]; [constructor|].
  destruct (Unpack_Response K O junk p r (tps i)) as [[[c|] t]| | | |] eqn:E; cbn [bind]; try discriminate.
  destruct (responses K O junk p tps (S i) rs) as [[cs|]| | | |] eqn:E2; cbn [bind]; try discriminate.
  intros _. constructor; [|eapply IH; eauto]. unfold Unpack_Response in E. rewrite int8_eq in E. cbv zeta in E.
  destruct (Z.eqb_spec (int8 (r_tag r)) RESP_LEFT) as [E1|]; [left; exact E1|].
  destruct (Z.eqb_spec (int8 (r_tag r)) RESP_BOTTOM) as [E1|]; [right; left; exact E1|].
  destruct (Z.eqb_spec (int8 (r_tag r)) RESP_RIGHT) as [E1|]; [right; right; exact E1|]. discriminate.
Qed.
Lemma Verify_legal fuel p tp tps : Verify K O junk fuel p tp tps = Ok true -> Forall (fun r => legal_tag (int8 (r_tag r))) (p_resp p).
Proof.
  unfold Verify. destruct (check_packed _ _ _ _ _) as [[[|] t]| | | |]; cbn [bind negb]; try discriminate.
  destruct (check_packed _ _ _ _ _) as [[[|] t']| | | |]; cbn [bind negb]; try discriminate.
  destruct (responses _ _ _ _ _ _ _) as [[hs|]| | | |] eqn:E; cbn [bind]; try discriminate.
  intros _. eapply responses_legal; eauto.
Qed.
End Dep.
Arguments same_dec {O}.

Section Word.
Variable K : pok.
Notation P := (fpar K).
Variable HG : good P.
Notation HW := (FpInst.HW P HG). Notation Hp := (FpInst.Hp P HG).
Notation OW := (word_ops P). Notation OF := (field_ops P HW Hp).
Lemma in_firstn {A} n (l : list A) x : In x (firstn n l) -> In x l.
Proof. intros H. rewrite <- (firstn_skipn n l). apply in_or_app. now left. Qed.
Lemma in_skipn {A} n (l : list A) x : In x (skipn n l) -> In x l.
Proof. intros H. rewrite <- (firstn_skipn n l). apply in_or_app. now right. Qed.
Lemma slice_ok o n l : digits 256 l -> (o + n <= length l)%nat -> digits 256 (slice o n l) /\ length (slice o n l) = n.
Proof.
  intros D L. unfold slice. split.
  - apply Forall_forall. intros x Hx. apply (proj1 (Forall_forall _ _) D).
    eapply in_skipn, in_firstn, Hx.
  - rewrite firstn_length, skipn_length. lia.
Qed.
Lemma wf_resp_bytes r : wf_response K r -> resp_bytes_ok K _ _ (word_sim P HW Hp) r.
Proof.
  intros [L D]. unfold resp_bytes_ok, left_xs, bottom_xs, right_xs, union_size, active_size in *. cbn [Z.eqb] in L.
  assert (G : forall o m f, (forall i, f i = slice (o + i * sidh_bytes K) (sidh_bytes K) (r_mem r)) -> (o + m * sidh_bytes K <= length (r_mem r))%nat ->
    Forall (elem_ok P) (map f (seq 0 m))).
  { intros o m f Hf Hm. apply Forall_map, Forall_forall. intros i Hi. apply in_seq in Hi. rewrite Hf.
    apply slice_ok; auto. assert (S i * sidh_bytes K <= m * sidh_bytes K)%nat by (apply Nat.mul_le_mono_r; lia). rewrite Nat.mul_succ_l in *. unfold sidh_bytes in *. lia. }
  change (bytes_ok (word_sim P HW Hp)) with (elem_ok P).
  split; [|split; [|split]].
  - apply (G (hide_bytes K + hash_bytes K)%nat); [reflexivity|lia].
  - apply (G (hide_bytes K + hide_bytes K + sidh_bytes K)%nat); [reflexivity|lia].
  - apply slice_ok; auto. unfold sidh_bytes in *. lia.
  - apply (G (hash_bytes K + hide_bytes K)%nat); [reflexivity|lia].
Qed.
Lemma wf_proof_bytes p : wf_proof K p -> proof_bytes_ok K _ _ (word_sim P HW Hp) p.
Proof.
  intros ([L0 D0] & [L1 D1] & _ & H). split; [|split].
  - split; auto.
  - split; auto.
  - eapply Forall_impl; [|exact H]. apply wf_resp_bytes.
Qed.
Hypothesis HR : rand_ok P.
Lemma Verify_word junk junk' fuel p tp tps : wf_proof K p ->
  Verify K OW junk fuel p tp tps = Verify K OF junk' fuel p tp tps.
Proof. intros H. apply Verify_sim with (S := word_sim P HW Hp); [now apply word_rand|now apply wf_proof_bytes]. Qed.
Lemma Generate_word junk junk' E tp : elem_ok P E -> Generate K OW junk E tp = Generate K OF junk' E tp.
Proof. intros H. apply Generate_sim with (S := word_sim P HW Hp); [now apply word_rand|exact H]. Qed.
Lemma Prove_word fuel sec olds tps tps2 : Forall (elem_ok P) (sE sec) -> Forall (elem_ok P) (sP sec) -> (width K < length (sE sec))%nat ->
  Prove K OW fuel sec olds tps tps2 = Prove K OF fuel sec olds tps tps2.
Proof. intros H1 H2 H3. apply Prove_sim with (S := word_sim P HW Hp); [now apply word_rand|split; auto|auto]. Qed.
Lemma same_value_dec a b : same_value P a b -> dec_val P HW Hp a = dec_val P HW Hp b.
Proof. intros H. injection H as H1 H2. unfold dec_val. f_equal; apply Fp_ext; auto. Qed.
Lemma Verify_equiv junk junk' fuel p q tp tps : wf_proof K p -> wf_proof K q -> equiv_proof K p q ->
  Verify K OW junk fuel p tp tps = Verify K OW junk' fuel q tp tps.
Proof.
  intros Hw Hq H. rewrite (Verify_word junk (@mkPt OF k0 k0)), (Verify_word junk' (@mkPt OF k0 k0)) by auto.
  apply Verify_dep; auto. exact same_value_dec.
Qed.
End Word.

(** ** Other encodings of the same proof *)
Section Mall.
Variable K : pok.
Notation P := (fpar K).
Variable HG : good P.
Hypothesis HR : rand_ok P.
Hypothesis room : 2 * par_p P <= 256 ^ Z.of_nat (fp_bytes P).
Lemma other_encoding b : digits 256 b -> length b = sidh_bytes K ->
  exists b', digits 256 b' /\ length b' = sidh_bytes K /\ b' <> b /\ same_value P b b'.
Proof.
  intros D L. pose proof (prime_ge_2 _ (proj2 HG)) as Hp2. unfold sidh_bytes in L.
  set (n := fp_bytes P) in *. set (v := valB 256 (firstn n b)).
  assert (Ln : length (firstn n b) = n) by (rewrite firstn_length; lia).
  assert (Bv : 0 <= v < 256 ^ Z.of_nat n).
  { unfold v. pose proof (valB_bound 256 (firstn n b) ltac:(lia) (digits_firstn _ _ _ D)) as HB. now rewrite Ln in HB. }
  set (v' := if v <? par_p P then v + par_p P else v - par_p P).
  assert (Bv' : 0 <= v' < 256 ^ Z.of_nat n) by (unfold v'; destruct (Z.ltb_spec v (par_p P)); lia).
  assert (Nv : v' <> v) by (unfold v'; destruct (v <? par_p P); lia).
  assert (Mv : v mod par_p P = v' mod par_p P).
  { unfold v'. destruct (v <? par_p P); [|rewrite Zminus_mod]; [rewrite Zplus_mod|]; rewrite Z_mod_same_full, ?Z.add_0_r, ?Z.sub_0_r; now rewrite Z.mod_mod by lia. }
  exists (toB 256 n v' ++ skipn n b).
  assert (F1 : firstn n (toB 256 n v' ++ skipn n b) = toB 256 n v').
  { rewrite firstn_app, toB_length, Nat.sub_diag, firstn_O, app_nil_r. apply firstn_all2. rewrite toB_length. lia. }
  assert (F2 : skipn n (toB 256 n v' ++ skipn n b) = skipn n b).
  { rewrite skipn_app, toB_length, Nat.sub_diag. rewrite skipn_all2 by (rewrite toB_length; lia). reflexivity. }
  assert (V1 : valB 256 (toB 256 n v') = v') by (rewrite valB_toB by lia; now apply Z.mod_small).
  split; [|split; [|split]].
  - apply Forall_app. split; [apply toB_digits; lia|]. apply Forall_forall. intros x Hx. apply (proj1 (Forall_forall _ _) D). eapply in_skipn, Hx.
  - rewrite app_length, toB_length, skipn_length. unfold sidh_bytes. fold n. lia.
  - intros E. apply Nv. rewrite <- V1, <- F1, E. reflexivity.
  - unfold same_value, packed_value. fold n. rewrite F1, F2, V1. fold v. now rewrite Mv.
Qed.
Lemma same_value_refl b : same_value P b b. Proof. reflexivity. Qed.
Lemma equiv_response_refl r : equiv_response K r r.
Proof.
  split; auto. destruct (int8 (r_tag r)) as [|[]|[]]; auto; repeat split; auto using same_value_refl.
Qed.
Lemma equiv_responses_refl rs : Forall2 (equiv_response K) rs rs.
Proof. induction rs; constructor; auto using equiv_response_refl. Qed.
Lemma malleable junk fuel prf tp tps : wf_proof K prf -> Verify K (word_ops P) junk fuel prf tp tps = Ok true ->
  exists prf', wf_proof K prf' /\ p_E0 prf' <> p_E0 prf /\ p_E1 prf' = p_E1 prf /\ p_resp prf' = p_resp prf /\
    equiv_proof K prf prf' /\ Verify K (word_ops P) junk fuel prf' tp tps = Ok true.
Proof.
  intros Hw HV. pose proof Hw as ([L0 D0] & H1 & L & HF). destruct (other_encoding _ D0 L0) as (b & Db & Lb & Nb & Sb).
  exists (mkProof b (p_E1 prf) (p_resp prf)). cbn [p_E0 p_E1 p_resp].
  assert (Hw' : wf_proof K (mkProof b (p_E1 prf) (p_resp prf))) by (split; [|split; [|split]]; auto).
  assert (He : equiv_proof K prf (mkProof b (p_E1 prf) (p_resp prf))).
  { split; [|split]; cbn [p_E0 p_E1 p_resp]; auto using same_value_refl, equiv_responses_refl. }
  refine (conj Hw' (conj Nb (conj eq_refl (conj eq_refl (conj He _))))).
  rewrite <- HV. symmetry. exact (Verify_equiv K HG HR junk junk fuel prf _ tp tps Hw Hw' He).
Qed.
Lemma retagged junk fuel prf prf' tp tps : wf_proof K prf -> p_E0 prf' = p_E0 prf -> p_E1 prf' = p_E1 prf ->
  Forall2 (fun r s => r_mem s = r_mem r /\ r_tag s mod 256 = r_tag r mod 256) (p_resp prf) (p_resp prf') ->
  wf_proof K prf' /\ Verify K (word_ops P) junk fuel prf' tp tps = Verify K (word_ops P) junk fuel prf tp tps.
Proof.
  intros Hw E0 E1 HF. pose proof Hw as ([L0 D0] & [L1 D1] & L & HF').
  assert (Hw' : wf_proof K prf').
  { split; [|split; [|split]]; rewrite ?E0, ?E1; auto.
    - rewrite <- L. clear - HF. induction HF; cbn; congruence.
    - clear - HF HF'. revert HF'. induction HF as [|r s rs ss [E _] _ IH]; intros HF'; inversion HF'; subst; constructor; auto.
      unfold wf_response in *. now rewrite E. }
  split; [exact Hw'|]. symmetry. refine (Verify_equiv K HG HR junk junk fuel prf prf' tp tps Hw Hw' _). unfold equiv_proof. rewrite E0, E1.
  split; [|split]; auto using same_value_refl.
  clear - HF. induction HF as [|r s rs ss [E T] _ IH]; constructor; auto. destruct r as [t m], s as [t' m']. cbn [r_mem r_tag] in *. subst m'.
  pose proof (equiv_response_refl (mkResp t m)) as [_ H]. split; cbn [r_tag]; auto.
Qed.
End Mall.

(** ** Proofs read back from their text *)
Section ReadBack.
Variable K : pok.
Notation P := (fpar K).
Lemma same_equiv p q : same_proof K p q -> equiv_proof K p q.
Proof.
  intros (E0 & E1 & HF). unfold equiv_proof. rewrite E0, E1. split; [reflexivity|]. split; [reflexivity|].
  induction HF as [|r s rs ss [T H] _ IH]; constructor; auto. split; [now rewrite T|]. clear - H.
  destruct (Z.eq_dec (r_tag r) (-1)) as [E|N1]; [rewrite E in *; cbn in *; destruct H as (H1 & H2 & H3); repeat split; auto; intros i Hi; now rewrite H3|].
  destruct (Z.eq_dec (r_tag r) 0) as [E|N2]; [rewrite E in *; cbn in *; destruct H as (H1 & H2 & H3 & H4); repeat split; auto; [now rewrite H3|]; intros i Hi; now rewrite H4|].
  destruct (Z.eq_dec (r_tag r) 1) as [E|N3]; [rewrite E in *; cbn in *; destruct H as (H1 & H2 & H3); repeat split; auto; intros i Hi; now rewrite H3|].
  destruct (r_tag r) as [|[]|[]]; cbn in H; try contradiction; congruence.
Qed.
Variable HG : good P.
Hypothesis HR : rand_ok P.
Lemma read_back p p0 suffix junk junk' fuel tp tps : (0 < hide_bytes K)%nat -> (0 < hash_bytes K)%nat ->
  wf_proof K p -> legal_tags p -> wf_proof K p0 ->
  exists q, Parse K p0 (proof_text K p ++ suffix) = Ok (Some (q, 10 :: suffix)) /\ p_E0 q = p_E0 p /\ p_E1 q = p_E1 p /\
  Verify K (word_ops P) junk fuel q tp tps = Verify K (word_ops P) junk' fuel p tp tps.
Proof.
  intros H1 H2 Hw Hl H0. destruct (roundtrip K p p0 suffix H1 H2 Hw Hl H0) as (s & _ & Es & q & EP & HS & Hq). rewrite Es in EP.
  exists q. split; [exact EP|]. pose proof HS as (E0 & E1 & _). split; auto. split; auto.
  symmetry. exact (Verify_equiv K HG HR junk' junk fuel p q tp tps Hw Hq (same_equiv _ _ HS)).
Qed.
End ReadBack.
