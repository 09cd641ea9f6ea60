(** The proofs of FpRep.v and FpMiscP.v restated for the property files (proofs only). *)
From Coq Require Import Znumtheory Field.
From Verif Require Import Base BaseP Digits DigitsP CombaP Params Fp Wf FpP Fld FpRep FpMisc FpMiscP PrimeInst.
Set Bullet Behavior "Strict Subproofs".

Definition good (P : params) : Prop := Wf P /\ prime (par_p P).

Lemma good_434 t : good (P434 t).
Proof. split; [apply Wf_P434|]. rewrite par_p_434. exact prime_434. Qed.
Lemma good_503 t : good (P503 t).
Proof. split; [apply Wf_P503|]. rewrite par_p_503. exact prime_503. Qed.
Lemma good_610 t : good (P610 t).
Proof. split; [apply Wf_P610|]. rewrite par_p_610. exact prime_610. Qed.
Lemma good_751 t : good (P751 t).
Proof. split; [apply Wf_P751|]. rewrite par_p_751. exact prime_751. Qed.
Lemma good_toy : good Ptoy.
Proof. split; [apply Wf_Ptoy|]. replace (par_p Ptoy) with (2 ^ 8 * 3 ^ 5 - 1) by (vm_compute; reflexivity). exact prime_toy. Qed.
Lemma good_configs t : good (P434 t) /\ good (P503 t) /\ good (P610 t) /\ good (P751 t).
Proof. auto using good_434, good_503, good_610, good_751. Qed.

Lemma primes_ok : prime (2 ^ 216 * 3 ^ 137 - 1) /\ prime (2 ^ 250 * 3 ^ 159 - 1) /\
  prime (2 ^ 305 * 3 ^ 192 - 1) /\ prime (2 ^ 372 * 3 ^ 239 - 1) /\
  forall t, par_p (P434 t) = 2 ^ 216 * 3 ^ 137 - 1 /\ par_p (P503 t) = 2 ^ 250 * 3 ^ 159 - 1 /\
            par_p (P610 t) = 2 ^ 305 * 3 ^ 192 - 1 /\ par_p (P751 t) = 2 ^ 372 * 3 ^ 239 - 1.
Proof.
  split; [exact prime_434|]. split; [exact prime_503|]. split; [exact prime_610|]. split; [exact prime_751|].
  intros t. split; [apply par_p_434|]. split; [apply par_p_503|]. split; [apply par_p_610|apply par_p_751].
Qed.

Lemma constants_ok P : good P ->
  let val := valB (2 ^ radix P) in
  let p := val (w_p P) in let R := 2 ^ (radix P * Z.of_nat (nwords P)) in
  prime p /\ p mod 4 = 3 /\ p = 2 ^ Z.of_nat (e2 P) * 3 ^ Z.of_nat (e3 P) - 1 /\
  val (w_px2 P) = 2 * p /\ val (w_px4 P) = 4 * p /\ val (w_pp1 P) = p + 1 /\
  val (w_one P) = R mod p /\ val (w_R2 P) = (R * R) mod p /\
  2 ^ (nbits P - 1) <= p < 2 ^ nbits P /\ 256 * p <= R.
Proof.
  intros [HW Hp] val p R. change p with (par_p P).
  replace R with (par_R P) by apply (R_pow P HW).
  split; [exact Hp|]. split; [exact (p4 P HW)|]. split; [pose proof (wf_shape P HW); lia|].
  split; [apply (wf_vpx2 P HW)|]. split; [apply (wf_vpx4 P HW)|]. split; [apply (wf_vpp1 P HW)|].
  split; [apply (wf_vone P HW)|]. split; [apply (wf_vR2 P HW)|]. split; [apply (wf_nbits P HW)|].
  apply (wf_head P HW).
Qed.

Section P.
Variable P : params.
Hypothesis HG : good P.
Definition HW : Wf P := proj1 HG.
Definition Hp : prime (par_p P) := proj2 HG.
Local Notation w := (radix P).
Local Notation n := (nwords P).
Local Notation p := (par_p P).
Local Notation val := (valB (2 ^ radix P)).
Local Notation ok := (ok P).
Local Notation rep := (rep P).
Local Notation srep := (srep P).
Local Notation rep2 := (rep2 P HW Hp).
Local Notation srep2 := (srep2 P HW Hp).
Local Notation toF := (toF P).

Definition Fth2 := Fp_field p Hp.
Add Field FpFd2 : Fth2.

Definition tq (a : f2elm) : K2 (FP P HW Hp) := (toF (fst a), toF (snd a)).
Lemma mk_rep k a : ok a -> val a <= k * p -> rep k a (toF a).
Proof. intros; split; [|split]; auto. Qed.
Lemma mk_srep a : ok a -> val a < 2 * p -> srep a (toF a).
Proof. intros; split; [|split]; auto. Qed.
Lemma mk_rep2 k a : ok (fst a) -> ok (snd a) -> val (fst a) <= k * p -> val (snd a) <= k * p -> rep2 k a (tq a).
Proof. intros; split; apply mk_rep; auto. Qed.
Lemma mk_srep2 a : ok (fst a) -> ok (snd a) -> val (fst a) < 2 * p -> val (snd a) < 2 * p -> srep2 a (tq a).
Proof. intros; split; apply mk_srep; auto. Qed.

Lemma toF_meaning a :
  (fval (toF a) * 2 ^ (w * Z.of_nat n)) mod p = val a mod p /\ 0 <= fval (toF a) < p.
Proof.
  split; [|apply fval_bound, (ppos P HW)].
  rewrite <- (R_pow P HW). pose proof (f_equal fval (toF_R P HW Hp a)) as E. cbn in E.
  rewrite <- E. rewrite Zmult_mod_idemp_r. reflexivity.
Qed.

Lemma fpinv_thm a : ok a -> val a <= 2 * p ->
  let r := fpinv_mont P a in
  ok r /\ val r < 2 * p /\
  (toF a <> f0 -> fmul (toF a) (toF r) = f1) /\ (toF a = f0 -> toF r = f0).
Proof.
  intros H1 H2 r. destruct (rep_inv P HW Hp a (toF a) (mk_rep 2 a H1 H2)) as (O & B & E).
  fold r in O, B, E. repeat (split; auto).
  - intros N. rewrite E. field. auto.
  - intros Z0. rewrite E, Z0. apply finv_0; [exact Hp|apply (p_ne2 P HW)].
Qed.
Lemma chain_thm a : ok a -> val a <= 2 * p ->
  fval (toF (fpinv_chain_mont P a)) = (fval (toF a) ^ ((p - 3) / 4)) mod p.
Proof.
  intros H1 H2. destruct (chain_rep P HW Hp a (toF a) (mk_rep 2 a H1 H2)) as (O & B & E).
  rewrite E. reflexivity.
Qed.
Lemma fp2inv_thm a : ok (fst a) -> ok (snd a) -> val (fst a) <= 2 * p -> val (snd a) <= 2 * p ->
  let r := fp2inv_mont P a in
  let x := toF (fst a) in let y := toF (snd a) in
  let u := toF (fst r) in let v := toF (snd r) in
  ok (fst r) /\ ok (snd r) /\ val (fst r) < 2 * p /\ val (snd r) < 2 * p /\
  ((x, y) <> (f0, f0) -> (fsub (fmul x u) (fmul y v), fadd (fmul x v) (fmul y u)) = (f1, f0)) /\
  ((x, y) = (f0, f0) -> (u, v) = (f0, f0)).
Proof.
  intros H1 H2 H3 H4 r x y u v.
  destruct (rep2_inv P HW Hp a (tq a) (mk_rep2 2 a H1 H2 H3 H4)) as [(O1 & B1 & E1) (O2 & B2 & E2)].
  fold r in O1, B1, E1, O2, B2, E2. fold u in E1. fold v in E2. repeat (split; auto).
  - intros N. pose proof (Finv_l (kth (FP2 P HW Hp)) (tq a) N) as I.
    rewrite (Rmul_comm (F_R (kth (FP2 P HW Hp)))) in I.
    rewrite E1, E2. exact I.
  - intros Z0. rewrite E1, E2. pose proof (f_equal fst Z0) as Zx. pose proof (f_equal snd Z0) as Zy. cbn [fst snd] in Zx, Zy.
    pose proof (qinv0 (FP P HW Hp)) as Q. assert (Ta : tq a = q0 (FP P HW Hp)).
    { exact (f_equal2 pair Zx Zy). }
    rewrite Ta, Q. reflexivity.
Qed.

Lemma fp2mul_thm j k a b :
  0 <= j <= 100 -> 0 <= k <= 100 -> 2 * (j * k) <= 255 ->
  ok (fst a) -> ok (snd a) -> ok (fst b) -> ok (snd b) ->
  val (fst a) <= j * p -> val (snd a) <= j * p -> val (fst b) <= k * p -> val (snd b) <= k * p ->
  let r := fp2mul_mont P a b in
  ok (fst r) /\ ok (snd r) /\ val (fst r) < 2 * p /\ val (snd r) < 2 * p /\
  toF (fst r) = fsub (fmul (toF (fst a)) (toF (fst b))) (fmul (toF (snd a)) (toF (snd b))) /\
  toF (snd r) = fadd (fmul (toF (fst a)) (toF (snd b))) (fmul (toF (snd a)) (toF (fst b))).
Proof.
  intros Hj Hk Hjk A0 A1 B0 B1 V0 V1 W0 W1 r.
  destruct (rep2_mul P HW Hp j k a b (tq a) (tq b)) as [(O1 & X1 & E1) (O2 & X2 & E2)]; auto using mk_rep2.
  repeat (split; auto).
Qed.
Lemma fp2sqr_thm a :
  ok (fst a) -> ok (snd a) -> val (fst a) <= 4 * p -> val (snd a) <= 4 * p ->
  let r := fp2sqr_mont P a in
  ok (fst r) /\ ok (snd r) /\ val (fst r) < 2 * p /\ val (snd r) < 2 * p /\
  toF (fst r) = fsub (fmul (toF (fst a)) (toF (fst a))) (fmul (toF (snd a)) (toF (snd a))) /\
  toF (snd r) = fadd (fmul (toF (fst a)) (toF (snd a))) (fmul (toF (snd a)) (toF (fst a))).
Proof.
  intros A0 A1 V0 V1 r.
  destruct (rep2_sqr P HW Hp 4 a (tq a)) as [(O1 & X1 & E1) (O2 & X2 & E2)]; auto using mk_rep2; [lia|].
  repeat (split; auto).
Qed.

Lemma fp_equal_thm a b : ok a -> ok b -> val a < 2 * p -> val b < 2 * p ->
  (fp_equal P a b = 255 <-> val a mod p = val b mod p) /\ (fp_equal P a b = 255 \/ fp_equal P a b = 0).
Proof.
  intros A B VA VB. rewrite (fp_equal_spec P HW Hp a b _ _ (mk_srep a A VA) (mk_srep b B VB)).
  rewrite (toF_eq P HW Hp).
  destruct (Fp_dec p (toF a) (toF b)) as [E|E]; (split; [split|]); auto; intros; try discriminate; tauto.
Qed.
Lemma fp_equal_2p : fp_equal P (w_px2 P) (fpzero P) = 0.
Proof.
  pose proof (ppos P HW) as Hpp. pose proof (Rhead P HW) as Hh.
  destruct (fpsub_val P HW (w_px2 P) (fpzero P)) as [O V].
  - apply (wf_px2 P HW). - apply (ok_zero P HW). - rewrite val_zero, (wf_vpx2 P HW). lia.
  - rewrite val_zero, (wf_vpx2 P HW) in V. destruct (Z.ltb_spec (2 * p) 0); [lia|]. rewrite Z.sub_0_r in V.
    destruct (fpcorrection_val P HW (fpsub P (w_px2 P) (fpzero P))) as [O2 V2]; auto; [lia|].
    rewrite V in V2. destruct (Z.ltb_spec (2 * p) p); [lia|].
    unfold fp_equal. set (c := fpcorrection P _) in *.
    rewrite ct_compare_spec.
    + destruct (list_eq_dec _ _ _) as [E|E]; [|reflexivity]. exfalso.
      rewrite (bytes_ok P HW) in E by auto. apply (f_equal (valB 256)) in E.
      rewrite valB_toB, valB_repeat0, (R256 P HW) in E by lia. rewrite Z.mod_small in E; lia.
    + rewrite (bytes_ok P HW) by auto. apply toB_digits. lia.
    + apply digits_repeat0. lia.
    + rewrite (bytes_ok P HW) by auto. rewrite toB_length, repeat_length. reflexivity.
Qed.
Lemma fp2_equal_thm a b :
  ok (fst a) -> ok (snd a) -> ok (fst b) -> ok (snd b) ->
  val (fst a) < 2 * p -> val (snd a) < 2 * p -> val (fst b) < 2 * p -> val (snd b) < 2 * p ->
  (fp2_equal P a b = 255 <-> toF (fst a) = toF (fst b) /\ toF (snd a) = toF (snd b)) /\
  (fp2_equal P a b = 255 \/ fp2_equal P a b = 0).
Proof.
  intros. rewrite (fp2_equal_spec P HW Hp a b (tq a) (tq b)) by (apply mk_srep2; auto).
  destruct (K2_dec _ (tq a) (tq b)) as [E|E]; (split; [split|]); auto; intros; try discriminate.
  - split; [exact (f_equal fst E)|exact (f_equal snd E)].
  - exfalso. apply E. destruct H7 as [X Y]. exact (f_equal2 pair X Y).
Qed.
Lemma from_mont_thm a : ok a -> val a <= 255 * p ->
  ok (from_mont P a) /\ val (from_mont P a) = fval (toF a).
Proof. intros H1 H2. apply (from_mont_val P HW Hp 255); [apply mk_rep; auto|lia]. Qed.

Lemma decode_encode_thm old x :
  ok (fst old) -> ok (snd old) -> digits 256 x -> length x = (2 * fp_bytes P)%nat ->
  fp2_encode P (fp2_decode P old x) =
  toB 256 (fp_bytes P) (valB 256 (firstn (fp_bytes P) x) mod p) ++
  toB 256 (fp_bytes P) (valB 256 (skipn (fp_bytes P) x) mod p).
Proof. exact (decode_encode P HW Hp old x). Qed.
Lemma decode_thm old x :
  ok (fst old) -> ok (snd old) -> digits 256 x -> length x = (2 * fp_bytes P)%nat ->
  let r := fp2_decode P old x in
  ok (fst r) /\ ok (snd r) /\ val (fst r) < 2 * p /\ val (snd r) < 2 * p /\
  fval (toF (fst r)) = valB 256 (firstn (fp_bytes P) x) mod p /\
  fval (toF (snd r)) = valB 256 (skipn (fp_bytes P) x) mod p.
Proof.
  intros H1 H2 H3 H4 r.
  destruct (fp2_decode_spec P HW Hp old x H1 H2 H3 H4) as [(O1 & B1 & E1) (O2 & B2 & E2)].
  fold r in O1, B1, E1, O2, B2, E2.
  repeat (split; auto).
  - rewrite E1. reflexivity.
  - rewrite E2. cbn [dec_val snd fval mkF proj1_sig].
    rewrite (firstn_all2 (skipn _ _)) by (rewrite skipn_length; lia). reflexivity.
Qed.
Lemma encode_val a : ok (fst a) -> ok (snd a) -> val (fst a) <= 255 * p -> val (snd a) <= 255 * p ->
  fp2_encode P a = toB 256 (fp_bytes P) (fval (toF (fst a))) ++ toB 256 (fp_bytes P) (fval (toF (snd a))).
Proof. intros. apply (fp2_encode_spec P HW Hp 255 a (tq a)); [lia|]. apply mk_rep2; auto. Qed.
Lemma toB_canon v : 0 <= v < p -> valB 256 (toB 256 (fp_bytes P) v) = v.
Proof. intros H. rewrite valB_toB by lia. apply Z.mod_small. pose proof (p_lt_bytes P HW). lia. Qed.
Lemma encode_thm a b :
  ok (fst a) -> ok (snd a) -> ok (fst b) -> ok (snd b) ->
  val (fst a) <= 255 * p -> val (snd a) <= 255 * p -> val (fst b) <= 255 * p -> val (snd b) <= 255 * p ->
  length (fp2_encode P a) = (2 * fp_bytes P)%nat /\ digits 256 (fp2_encode P a) /\
  valB 256 (firstn (fp_bytes P) (fp2_encode P a)) = fval (toF (fst a)) /\
  valB 256 (skipn (fp_bytes P) (fp2_encode P a)) = fval (toF (snd a)) /\
  (fp2_encode P a = fp2_encode P b <-> toF (fst a) = toF (fst b) /\ toF (snd a) = toF (snd b)).
Proof.
  intros. rewrite !encode_val by auto.
  assert (FB : forall z : Fp p, 0 <= fval z < p) by (intros; apply fval_bound, (ppos P HW)).
  assert (F1 : forall u v, firstn (fp_bytes P) (toB 256 (fp_bytes P) u ++ toB 256 (fp_bytes P) v) = toB 256 (fp_bytes P) u).
  { intros. rewrite firstn_app, toB_length, Nat.sub_diag, firstn_O, app_nil_r.
    apply firstn_all2. rewrite toB_length. lia. }
  assert (S1 : forall u v, skipn (fp_bytes P) (toB 256 (fp_bytes P) u ++ toB 256 (fp_bytes P) v) = toB 256 (fp_bytes P) v).
  { intros. rewrite skipn_app, toB_length, Nat.sub_diag, skipn_O, skipn_all2 by (rewrite toB_length; lia). reflexivity. }
  rewrite F1, S1. split; [rewrite app_length, !toB_length; lia|].
  split; [apply digits_app; split; apply toB_digits; lia|].
  split; [apply toB_canon; auto|]. split; [apply toB_canon; auto|]. split.
  - intros E. pose proof (f_equal (firstn (fp_bytes P)) E) as E1. pose proof (f_equal (skipn (fp_bytes P)) E) as E2.
    rewrite !F1 in E1. rewrite !S1 in E2.
    apply (f_equal (valB 256)) in E1. apply (f_equal (valB 256)) in E2. rewrite !toB_canon in E1, E2 by auto.
    split; now apply Fp_ext.
  - intros [-> ->]. reflexivity.
Qed.
Lemma canonical_roundtrip old x :
  ok (fst old) -> ok (snd old) -> digits 256 x -> length x = (2 * fp_bytes P)%nat ->
  valB 256 (firstn (fp_bytes P) x) < p -> valB 256 (skipn (fp_bytes P) x) < p ->
  fp2_encode P (fp2_decode P old x) = x.
Proof.
  intros H1 H2 H3 H4 H5 H6. rewrite decode_encode_thm by auto.
  assert (D1 := digits_firstn _ _ (fp_bytes P) H3). assert (D2 := digits_skipn _ _ (fp_bytes P) H3).
  pose proof (valB_bound 256 _ ltac:(lia) D1). pose proof (valB_bound 256 _ ltac:(lia) D2).
  rewrite !Z.mod_small by lia.
  assert (L1 : length (firstn (fp_bytes P) x) = fp_bytes P) by (rewrite firstn_length; lia).
  assert (L2 : length (skipn (fp_bytes P) x) = fp_bytes P) by (rewrite skipn_length; lia).
  rewrite <- L1 at 1. rewrite <- L2 at 3. rewrite !toB_valB by (auto; lia). apply firstn_skipn.
Qed.

(** fprand *)
Lemma fprand_val bytes : digits 256 bytes -> length bytes = felm_bytes P ->
  ok (fprand P bytes) /\
  val (fprand P bytes) <= (2 ^ w) ^ Z.of_nat (n - 1) * 2 ^ (w - nbits P mod w) - 1.
Proof.
  intros D L. unfold fprand, felm_bytes in *.
  destruct (digits_of_bytes_spec w (w2 P HW) (wf_radix8 P HW) n bytes D L) as (L1 & D1 & V1).
  set (el := digits_of_bytes w n bytes) in *.
  pose proof (w2 P HW) as W2. pose proof (Bpos P HW) as HB. pose proof (wf_n1 P HW) as HN.
  set (k := nbits P mod w) in *.
  assert (Hk : 0 <= k < w) by (apply Z.mod_pos_bound; lia).
  assert (M : Z.shiftr (2 ^ w - 1) k = Z.ones (w - k)).
  { rewrite Z.shiftr_div_pow2, Z.ones_equiv by lia.
    assert (0 < 2 ^ k) by (apply Z.pow_pos_nonneg; lia).
    assert (2 ^ w = 2 ^ (w - k) * 2 ^ k) by (rewrite <- Z.pow_add_r by lia; f_equal; lia).
    symmetry. apply Z.div_unique with (r := 2 ^ k - 1); [left; lia|]. unfold Z.pred. nia. }
  rewrite M. rewrite Z.land_ones by lia.
  set (t := nth (n - 1) el 0 mod 2 ^ (w - k)).
  assert (P2 : 0 < 2 ^ (w - k)) by (apply Z.pow_pos_nonneg; lia).
  assert (Ht : 0 <= t < 2 ^ (w - k)) by (apply Z.mod_pos_bound; auto).
  assert (Hle : 2 ^ (w - k) <= 2 ^ w) by (apply Z.pow_le_mono_r; lia).
  split.
  - split; [now rewrite upd_length|]. apply digits_upd; auto. lia.
  - assert (E : upd (n - 1) t el = firstn (n - 1) el ++ [t]).
    { rewrite <- (firstn_skipn (n - 1) el) at 1.
      assert (LF : length (firstn (n - 1) el) = (n - 1)%nat) by (rewrite firstn_length; lia).
      rewrite upd_app_r by lia. rewrite LF, Nat.sub_diag.
      destruct (skipn (n - 1) el) as [|z [|z' r]] eqn:Es.
      - apply (f_equal (@length Z)) in Es. rewrite skipn_length in Es. cbn in Es. lia.
      - reflexivity.
      - apply (f_equal (@length Z)) in Es. rewrite skipn_length in Es. cbn in Es. lia. }
    rewrite E, valB_app. rewrite firstn_length_le by lia. cbn [valB].
    pose proof (valB_bound _ (firstn (n - 1) el) HB (digits_firstn _ _ _ D1)) as BF.
    rewrite firstn_length_le in BF by lia.
    set (R1 := (2 ^ w) ^ Z.of_nat (n - 1)) in *. assert (0 < R1) by lia. nia.
Qed.
End P.

Lemma fprand_range_gen P : good P ->
  (par_p P <? (2 ^ radix P) ^ Z.of_nat (nwords P - 1) * 2 ^ (radix P - nbits P mod radix P)) = false ->
  forall bytes, digits 256 bytes -> length bytes = felm_bytes P ->
  ok P (fprand P bytes) /\ valB (2 ^ radix P) (fprand P bytes) < par_p P.
Proof.
  intros HG H bytes D L. destruct (fprand_val P HG bytes D L) as [O V]. apply Z.ltb_ge in H. split; auto. lia.
Qed.
Lemma fprand_range_64 P : In P [P434 T64; P503 T64; P610 T64; P751 T64] ->
  forall bytes, digits 256 bytes -> length bytes = felm_bytes P ->
  ok P (fprand P bytes) /\ valB (2 ^ radix P) (fprand P bytes) < par_p P.
Proof.
  intros H. apply fprand_range_gen; cbn [In] in H; destruct H as [<-|[<-|[<-|[<-|[]]]]];
    auto using good_434, good_503, good_610, good_751; vm_compute; reflexivity.
Qed.
Lemma fprand_range_32 P : In P [P434 T32; P503 T32] ->
  forall bytes, digits 256 bytes -> length bytes = felm_bytes P ->
  ok P (fprand P bytes) /\ valB (2 ^ radix P) (fprand P bytes) < par_p P.
Proof.
  intros H. apply fprand_range_gen; cbn [In] in H; destruct H as [<-|[<-|[]]];
    auto using good_434, good_503; vm_compute; reflexivity.
Qed.
Lemma digits_repeat B k c : 0 <= c < B -> digits B (repeat c k).
Proof. intros H. induction k; constructor; auto. Qed.
Lemma fprand_range_32_refuted P : In P [P610 T32; P751 T32] ->
  exists bytes, digits 256 bytes /\ length bytes = felm_bytes P /\
    2 * par_p P < valB (2 ^ radix P) (fprand P bytes).
Proof.
  intros H. exists (repeat 255 (felm_bytes P)).
  split; [apply digits_repeat; lia|]. split; [apply repeat_length|].
  cbn [In] in H; destruct H as [<-|[<-|[]]]; vm_compute; reflexivity.
Qed.
Lemma fprand_not_surjective P : In P [P434 T64; P503 T64; P610 T64; P751 T64] ->
  exists x : Fp (par_p P), forall bytes, digits 256 bytes -> length bytes = felm_bytes P ->
    toF P (fprand P bytes) <> x.
Proof.
  intros H.
  assert (HG : good P) by (cbn [In] in H; destruct H as [<-|[<-|[<-|[<-|[]]]]]; auto using good_434, good_503, good_610, good_751).
  assert (HB : (2 ^ radix P) ^ Z.of_nat (nwords P - 1) * 2 ^ (radix P - nbits P mod radix P) <= par_p P - 1).
  { apply Z.leb_le. cbn [In] in H; destruct H as [<-|[<-|[<-|[<-|[]]]]]; vm_compute; reflexivity. }
  destruct HG as [HW Hp]. assert (HG : good P) by (split; auto).
  set (m := toB (2 ^ radix P) (nwords P) (par_p P - 1)).
  pose proof (ppos P HW) as Hpp. pose proof (Rhead P HW) as Hh. pose proof (p_ge P HW).
  assert (Vm : valB (2 ^ radix P) m = par_p P - 1).
  { unfold m. rewrite valB_toB by apply (Bpos P HW). apply Z.mod_small. unfold par_R in Hh. lia. }
  exists (toF P m). intros bytes D L E.
  destruct (fprand_val P HG bytes D L) as [O V]. pose proof (ok_bound P HW _ O) as B0.
  apply (toF_eq P HW Hp) in E. rewrite Vm in E. rewrite !Z.mod_small in E by lia. lia.
Qed.
