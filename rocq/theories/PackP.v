(** The odd multipliers of Pack_Chain_A and the positions of the parts of a packed response. *)
From Verif Require Import Base BaseP Digits DigitsP Out Params Fp Wf FpP FpMisc FpMiscP Poik Hashing Codec CodecSpec Ops Ec Models Proto TapeP.
Set Bullet Behavior "Strict Subproofs".

Section PK.
Variable K : pok.
Notation P := (fpar K).
Notation w := (radix P).
Hypothesis Hw2 : 2 <= w.
Hypothesis Hw8 : w mod 8 = 0.
Lemma take_ok n tp b tp' : take_bytes n tp = Ok (b, tp') -> length b = n /\ tp = b ++ tp'.
Proof.
  unfold take_bytes. destruct (length tp <? n)%nat eqn:E; [discriminate|]. apply Nat.ltb_ge in E. intros H.
  assert (b = firstn n tp) as -> by congruence. assert (tp' = skipn n tp) as -> by congruence. split; [rewrite firstn_length; lia|]. symmetry. apply firstn_skipn.
Qed.
Lemma land_byte a m : 0 <= a < 256 -> 0 <= Z.land a m < 256.
Proof.
  intros H. assert (E : Z.land a m = Z.land a m mod 256).
  { change 256 with (2 ^ 8). rewrite <- !Z.land_ones by lia. rewrite <- Z.land_assoc, (Z.land_comm m), Z.land_assoc. f_equal.
    rewrite Z.land_ones by lia. symmetry. apply Z.mod_small. exact H. }
  rewrite E. apply Z.mod_pos_bound. lia.
Qed.
Lemma lor_byte a : 0 <= a < 256 -> 0 <= Z.lor a 1 < 256.
Proof.
  intros H. assert (E : Z.lor a 1 = Z.lor a 1 mod 256).
  { change 256 with (2 ^ 8). rewrite <- !Z.land_ones by lia. rewrite Z.land_lor_distr_l. f_equal.
    rewrite Z.land_ones by lia. symmetry. apply Z.mod_small. exact H. }
  rewrite E. apply Z.mod_pos_bound. lia.
Qed.
Lemma random_odd_ok tp m tp' : (1 <= e2 P)%nat -> random_odd_A K tp = Ok (m, tp') -> digits 256 tp ->
  rest_of tp' tp /\ digits (2 ^ w) m /\ (e2 P <= Z.to_nat w * length m)%nat /\ Z.odd (valB (2 ^ w) m) = true.
Proof.
  intros He H D. unfold random_odd_A in H. set (sa := secretkey_a_bytes K) in *.
  destruct (take_bytes sa tp) as [[buf t1]| | | |] eqn:ET; cbn [bind] in H; try discriminate. apply take_ok in ET as [L ->].
  apply Forall_app in D as [D D1]. cbv zeta in H.
  assert (Hsa : (1 <= sa)%nat) by (unfold sa, secretkey_a_bytes; apply Nat.div_le_lower_bound; lia).
  assert (Hsa2 : (e2 P <= 8 * sa)%nat).
  { unfold sa, secretkey_a_bytes. pose proof (Nat.div_mod (e2 P + 7) 8 ltac:(lia)). pose proof (Nat.mod_upper_bound (e2 P + 7) 8 ltac:(lia)). lia. }
  set (b1 := upd (sa - 1) (Z.land (nth (sa - 1) buf 0) (mask_alice P)) buf) in *. set (b2 := upd 0 (Z.lor (nth 0 b1 0) 1) b1) in *.
  set (db := digit_bytes w) in *. set (nd := ((sa + db - 1) / db)%nat) in *.
  assert (Hdb : Z.of_nat db * 8 = w). { unfold db, digit_bytes. rewrite Z2Nat.id by (apply Z.div_pos; lia). pose proof (Z.div_mod w 8 ltac:(lia)). lia. }
  assert (Hdb1 : (1 <= db)%nat) by lia.
  assert (Hnd : (sa <= nd * db)%nat).
  { unfold nd. pose proof (Nat.div_mod (sa + db - 1) db ltac:(lia)) as X. pose proof (Nat.mod_upper_bound (sa + db - 1) db ltac:(lia)). rewrite (Nat.mul_comm _ db). lia. }
  assert (L1 : length b1 = sa) by (unfold b1; now rewrite BaseP.upd_length). assert (L2 : length b2 = sa) by (unfold b2; now rewrite BaseP.upd_length).
  assert (Db1 : digits 256 b1). { apply BaseP.digits_upd; auto. apply land_byte. apply (digits_nth 256); auto; lia. }
  assert (Db2 : digits 256 b2). { apply BaseP.digits_upd; auto. apply lor_byte. apply (digits_nth 256); auto; lia. }
  assert (m = digits_of_bytes w nd (b2 ++ repeat 0 (nd * db - sa))) as -> by congruence. assert (tp' = t1) as -> by congruence. clear H.
  destruct (digits_of_bytes_spec w Hw2 Hw8 nd (b2 ++ repeat 0 (nd * db - sa))) as (A1 & A2 & A3).
  - apply digits_app. split; auto. apply Forall_forall. intros x Hx. apply repeat_spec in Hx. lia.
  - rewrite app_length, repeat_length. fold db. lia.
  - split; [exists buf; reflexivity|]. split; [exact A2|]. split; [rewrite A1; replace (Z.to_nat w) with (8 * db)%nat by lia; clear - Hnd Hsa2; nia|]. rewrite A3.
    unfold b2. clear - L1 Hsa. clearbody b1 sa. destruct b1 as [|x b1]; [cbn [length] in L1; lia|]. cbn [upd app nth valB]. rewrite Z.odd_add, Z.odd_mul. change (Z.odd 256) with false. cbn [andb].
    rewrite xorb_false_r. rewrite <- Z.bit0_odd, Z.lor_spec. apply orb_true_r.
Qed.

(** ** Layout *)
Lemma slice_here (a b : list Z) n : length a = n -> slice 0 n (a ++ b) = a.
Proof. intros <-. unfold slice. cbn [skipn]. rewrite firstn_app, Nat.sub_diag, firstn_O, app_nil_r. apply firstn_all. Qed.
Lemma slice_skip (a b : list Z) o k n : length a = k -> slice (k + o) n (a ++ b) = slice o n b.
Proof. intros <-. unfold slice. rewrite skipn_app, skipn_all2 by lia. f_equal. cbn [app]. f_equal. lia. Qed.
Lemma slice_concat s (xs : list (list Z)) rest : Forall (fun x => length x = s) xs ->
  map (fun i => slice (i * s) s (concat xs ++ rest)) (seq 0 (length xs)) = xs.
Proof.
  intros H. induction H as [|x xs Hx H IH]; [reflexivity|]. cbn [length seq map concat]. f_equal.
  - cbn [Nat.mul]. rewrite <- app_assoc. now apply slice_here.
  - rewrite <- seq_shift, map_map. rewrite <- IH at 2. apply map_ext. intros i. cbn [Nat.mul]. rewrite <- app_assoc. now apply slice_skip.
Qed.
Lemma left_layout which old r2 h3 xs : length r2 = hide_bytes K -> length h3 = hash_bytes K -> Forall (fun x => length x = sidh_bytes K) xs -> length xs = height K ->
  let r := mkResp which (fill old (r2 ++ h3 ++ concat xs)) in left_r2 K r = r2 /\ left_h3 K r = h3 /\ left_xs K r = xs.
Proof.
  intros L1 L2 Hx L3. unfold left_r2, left_h3, left_xs, left_x, fill. cbn [r_mem]. rewrite <- !app_assoc. split; [now apply slice_here|]. split.
  - rewrite <- (Nat.add_0_r (hide_bytes K)). rewrite slice_skip by auto. now apply slice_here.
  - rewrite <- L3. etransitivity; [|eapply (slice_concat (sidh_bytes K) xs _ Hx)]. apply map_ext. intros i. cbv beta. rewrite <- Nat.add_assoc, slice_skip, slice_skip by auto. reflexivity.
Qed.
Lemma right_layout which old h2 r3 xs : length h2 = hash_bytes K -> length r3 = hide_bytes K -> Forall (fun x => length x = sidh_bytes K) xs -> length xs = height K ->
  let r := mkResp which (fill old (h2 ++ r3 ++ concat xs)) in right_h2 K r = h2 /\ right_r3 K r = r3 /\ right_xs K r = xs.
Proof.
  intros L1 L2 Hx L3. unfold right_h2, right_r3, right_xs, right_x, fill. cbn [r_mem]. rewrite <- !app_assoc. split; [now apply slice_here|]. split.
  - rewrite <- (Nat.add_0_r (hash_bytes K)). rewrite slice_skip by auto. now apply slice_here.
  - rewrite <- L3. etransitivity; [|eapply (slice_concat (sidh_bytes K) xs _ Hx)]. apply map_ext. intros i. cbv beta. rewrite <- Nat.add_assoc, slice_skip, slice_skip by auto. reflexivity.
Qed.
Lemma bottom_layout which old r2 r3 a xs : length r2 = hide_bytes K -> length r3 = hide_bytes K -> length a = sidh_bytes K ->
  Forall (fun x => length x = sidh_bytes K) xs -> length xs = width K ->
  let r := mkResp which (fill old (r2 ++ r3 ++ a ++ concat xs)) in bottom_r2 K r = r2 /\ bottom_r3 K r = r3 /\ bottom_E2 K r = a /\ bottom_xs K r = xs.
Proof.
  intros L1 L2 La Hx L3. unfold bottom_r2, bottom_r3, bottom_E2, bottom_xs, bottom_x, fill. cbn [r_mem]. rewrite <- !app_assoc. split; [now apply slice_here|]. split; [|split].
  - rewrite <- (Nat.add_0_r (hide_bytes K)) at 1. rewrite slice_skip by auto. now apply slice_here.
  - rewrite <- (Nat.add_0_r (hide_bytes K + hide_bytes K)), <- Nat.add_assoc, slice_skip, slice_skip by auto. now apply slice_here.
  - rewrite <- L3. etransitivity; [|eapply (slice_concat (sidh_bytes K) xs _ Hx)]. apply map_ext. intros i. cbv beta. rewrite <- !Nat.add_assoc, !slice_skip by auto. reflexivity.
Qed.
Lemma concat_uniform s (xs : list (list Z)) : Forall (fun x => length x = s) xs -> length (concat xs) = (length xs * s)%nat.
Proof. induction 1 as [|x xs H1 H IH]; [reflexivity|]. cbn [concat length Nat.mul]. rewrite app_length. lia. Qed.
Lemma fill_wf which old bytes : length old = union_size K -> digits 256 old -> digits 256 bytes -> (length bytes <= union_size K)%nat ->
  wf_response K (mkResp which (fill old bytes)).
Proof.
  intros L D D' H. unfold wf_response, fill. cbn [r_mem]. split; [rewrite app_length, skipn_length; lia|].
  apply digits_app. split; auto. rewrite <- (firstn_skipn (length bytes) old) in D. apply digits_app in D. apply D.
Qed.
End PK.
