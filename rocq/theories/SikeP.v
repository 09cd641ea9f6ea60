(** Proofs about SIKE (Sike.v). *)
From Verif Require Import Base BaseP Digits DigitsP Out Params Fp FpMisc FpMiscP KeccakSpec Keccak KeccakP SpongeP Ops Sike.
Set Bullet Behavior "Strict Subproofs".

(** Specification: ct is the encapsulation of the message m for the public key pk. *)
Definition encapsulates (msgb skA : nat) (maskA : Z) (keygen_A : list Z -> out (list Z)) (agree_A : list Z -> list Z -> out (list Z))
  (m pk ct : list Z) : Prop :=
  length m = msgb /\ digits 256 m /\
  exists a c0 j, a = mask_last skA maskA (shake256 skA (m ++ pk)) /\ keygen_A a = Ok c0 /\ agree_A a pk = Ok j /\
    ct = c0 ++ map (fun '(x, y) => Z.lxor x y) (combine m (shake256 msgb j)).
(** Whenever both sides of the key exchange compute a secret from each other's public keys, it is the same one. *)
Definition kex_agree (skA skB : nat) (keygen_A keygen_B : list Z -> out (list Z))
  (agree_A : list Z -> list Z -> out (list Z)) (agree_B : list Z -> list Z -> out (option (list Z))) : Prop :=
  forall a b pA pB, length a = skA -> length b = skB -> digits 256 a -> digits 256 b ->
    keygen_A a = Ok pA -> keygen_B b = Ok pB ->
    forall j j', agree_A a pB = Ok j -> agree_B b pA = Ok (Some j') -> j' = j.
(** The private key's owner does not reject the public key at the start of the ciphertext. *)
Definition not_rejected (msgb skB pkb : nat) (agree_B : list Z -> list Z -> out (option (list Z))) (sk ct : list Z) : Prop :=
  exists j, agree_B (firstn skB (skipn msgb sk)) (firstn pkb ct) = Ok (Some j).

Section SikeP.
Variables (msgb skA skB pkb ssb : nat).
Variables (maskA maskB : Z).
Variable keygen_A : list Z -> out (list Z).
Variable agree_B : list Z -> list Z -> out (option (list Z)).
(** Public keys are pkb bytes, shared secrets are bytes. *)
Hypothesis pkA_bytes : forall a c, keygen_A a = Ok c -> length c = pkb /\ digits 256 c.
Hypothesis ssB_bytes : forall a b j, length b = pkb -> digits 256 b -> agree_B a b = Ok (Some j) -> digits 256 j.
Notation dec := (crypto_kem_dec msgb skA skB pkb ssb maskA keygen_A agree_B).
Notation H n x := (shake256 n x).

Lemma xor_bytes_len a b : length (xor_bytes a b) = Nat.min (length a) (length b).
Proof. unfold xor_bytes. now rewrite map_length, combine_length. Qed.
Lemma lxor_byte x y : 0 <= x < 256 -> 0 <= y < 256 -> 0 <= Z.lxor x y < 256.
Proof.
  intros Hx Hy. assert (N : 0 <= Z.lxor x y) by (apply Z.lxor_nonneg; lia). split; auto.
  destruct (Z.eq_dec (Z.lxor x y) 0) as [->|D]; [lia|].
  change 256 with (2 ^ 8). apply Z.log2_lt_pow2; [lia|].
  eapply Z.le_lt_trans; [apply Z.log2_lxor; lia|].
  apply Z.max_lub_lt.
  - destruct (Z.eq_dec x 0) as [->|]; [cbn; lia|]. apply Z.log2_lt_pow2; lia.
  - destruct (Z.eq_dec y 0) as [->|]; [cbn; lia|]. apply Z.log2_lt_pow2; lia.
Qed.
Lemma xor_bytes_ok a : forall b, digits 256 a -> digits 256 b -> digits 256 (xor_bytes a b).
Proof.
  induction a as [|x a IH]; intros [|y b] Ha Hb; cbn; constructor; inversion Ha; inversion Hb; subst.
  - now apply lxor_byte.
  - now apply IH.
Qed.
Lemma xor_twice a : forall b, length a = length b -> xor_bytes (xor_bytes a b) b = a.
Proof.
  induction a as [|x a IH]; intros [|y b] L; cbn in *; try lia; [reflexivity|]. f_equal; [|apply IH; lia].
  now rewrite Z.lxor_assoc, Z.lxor_nilpotent, Z.lxor_0_r.
Qed.
Lemma mask_last_len n k b : length (mask_last n k b) = length b.
Proof. unfold mask_last. apply upd_length. Qed.
Lemma land_byte x m : 0 <= x < 256 -> 0 <= Z.land x m < 256.
Proof.
  intros Hx. assert (N : 0 <= Z.land x m) by (apply Z.land_nonneg; lia). split; auto.
  replace (Z.land x m) with (Z.land x (Z.land m 255)).
  - rewrite Z.land_assoc. change 255 with (Z.ones 8). rewrite Z.land_ones by lia. apply Z.mod_pos_bound. lia.
  - rewrite (Z.land_comm m), Z.land_assoc. f_equal. change 255 with (Z.ones 8). rewrite Z.land_ones by lia. apply Z.mod_small. lia.
Qed.
Lemma digits_app_inv B a b : digits B (a ++ b) -> digits B a /\ digits B b.
Proof. apply Forall_app. Qed.
Lemma digits_upd B i x l : 0 <= x < B -> digits B l -> digits B (upd i x l).
Proof.
  intros Hx. revert i; induction l as [|y l IH]; intros [|i] Hl; cbn; auto; inversion Hl; subst; constructor; auto; apply IH; auto.
Qed.
Lemma mask_last_ok n k b : digits 256 b -> digits 256 (mask_last n k b).
Proof.
  intros Hb. unfold mask_last. apply digits_upd; auto. apply land_byte.
  destruct (lt_dec (n - 1) (length b)) as [L|L].
  - unfold digits in Hb. rewrite Forall_forall in Hb. apply Hb, nth_In, L.
  - rewrite nth_overflow by lia. lia.
Qed.
Lemma H_len n x : digits 256 x -> length (H n x) = n.
Proof. intros D. apply shake256_ok; auto. Qed.
Lemma H_ok n x : digits 256 x -> digits 256 (H n x).
Proof. intros D. apply shake256_ok; auto. Qed.
Lemma eph_len m pk : digits 256 m -> digits 256 pk -> length (eph skA maskA m pk) = skA.
Proof. intros. unfold eph. rewrite mask_last_len, H_len; auto. apply Forall_app; auto. Qed.
Lemma eph_ok m pk : digits 256 m -> digits 256 pk -> digits 256 (eph skA maskA m pk).
Proof. intros. unfold eph. apply mask_last_ok, H_ok. apply Forall_app; auto. Qed.

(** ** What decapsulation returns *)
Section Dec.
Variables (s b pk c0 c1 temp : list Z).
Hypothesis Ls : length s = msgb. Hypothesis Lb : length b = skB.
Hypothesis L0 : length c0 = pkb. Hypothesis L1 : length c1 = msgb. Hypothesis Lt : length temp = msgb.
Hypothesis Ds : digits 256 s. Hypothesis D0 : digits 256 c0. Hypothesis D1 : digits 256 c1. Hypothesis Dt : digits 256 temp.

Lemma split_b : firstn skB (skipn msgb (s ++ b ++ pk)) = b.
Proof. rewrite <- Ls, skipn_app, skipn_all, Nat.sub_diag. cbn [skipn app]. rewrite <- Lb, firstn_app, firstn_all, Nat.sub_diag. cbn. apply app_nil_r. Qed.
Lemma split_pk : skipn (msgb + skB) (s ++ b ++ pk) = pk.
Proof.
  rewrite app_assoc. replace (msgb + skB)%nat with (length (s ++ b)) by (rewrite app_length; lia).
  rewrite skipn_app, skipn_all, Nat.sub_diag. reflexivity.
Qed.
Lemma split_s : firstn msgb (s ++ b ++ pk) = s.
Proof. rewrite <- Ls, firstn_app, firstn_all, Nat.sub_diag. cbn. apply app_nil_r. Qed.
Lemma split_c0 : firstn pkb (c0 ++ c1) = c0.
Proof. rewrite <- L0, firstn_app, firstn_all, Nat.sub_diag. cbn. apply app_nil_r. Qed.
Lemma split_c1 : skipn pkb (c0 ++ c1) = c1.
Proof. rewrite <- L0, skipn_app, skipn_all, Nat.sub_diag. reflexivity. Qed.

Lemma dec_invalid : agree_B b c0 = Ok None -> dec (c0 ++ c1) (s ++ b ++ pk) temp = Ok (H ssb (s ++ c0 ++ c1)).
Proof.
  intros E. unfold crypto_kem_dec. rewrite split_b, split_pk, split_s, split_c0, E. cbn [bind].
  rewrite (proj2 (ct_cmov_spec temp s Dt Ds ltac:(lia))). reflexivity.
Qed.
Lemma dec_valid j c0' : agree_B b c0 = Ok (Some j) -> let m := xor_bytes c1 (H msgb j) in keygen_A (eph skA maskA m pk) = Ok c0' ->
  dec (c0 ++ c1) (s ++ b ++ pk) temp = Ok (H ssb ((if list_eq_dec Z.eq_dec c0' c0 then m else s) ++ c0 ++ c1)).
Proof.
  intros E m E'. unfold crypto_kem_dec. rewrite split_b, split_pk, split_s, split_c0, split_c1, E. cbn [bind].
  fold m. rewrite E'. cbn [bind]. destruct (pkA_bytes _ _ E') as [L' D'].
  assert (Dj : digits 256 j) by (apply (ssB_bytes b c0 j); auto).
  assert (Lm : length m = msgb) by (unfold m; rewrite xor_bytes_len, H_len by auto; lia).
  assert (Dm : digits 256 m) by (unfold m; apply xor_bytes_ok; auto; apply H_ok; auto).
  rewrite ct_compare_spec by (auto; lia).
  destruct (ct_cmov_spec m s Dm Ds ltac:(lia)) as [C1 C2]. destruct (list_eq_dec Z.eq_dec c0' c0); [now rewrite C1|now rewrite C2].
Qed.
End Dec.

Theorem dec_total s b pk c0 c1 temp : length s = msgb -> length b = skB -> length c0 = pkb -> length c1 = msgb -> length temp = msgb ->
  digits 256 s -> digits 256 c0 -> digits 256 c1 -> digits 256 temp -> digits 256 pk ->
  forall r, agree_B b c0 = Ok r -> (forall a, length a = skA -> digits 256 a -> exists c, keygen_A a = Ok c) ->
  exists x, (x = s \/ exists j, r = Some j /\ x = xor_bytes c1 (H msgb j) /\ keygen_A (eph skA maskA x pk) = Ok c0) /\
    dec (c0 ++ c1) (s ++ b ++ pk) temp = Ok (H ssb (x ++ c0 ++ c1)) /\
    ((forall j, r = Some j -> keygen_A (eph skA maskA (xor_bytes c1 (H msgb j)) pk) <> Ok c0) -> x = s).
Proof.
  intros Ls Lb L0 L1 Lt Ds D0 D1 Dt Dp [j|] E Hk.
  - assert (Dm : digits 256 (xor_bytes c1 (H msgb j))) by (apply xor_bytes_ok; auto; apply H_ok; eapply ssB_bytes; eauto).
    destruct (Hk (eph skA maskA (xor_bytes c1 (H msgb j)) pk)) as [c Ec]; [now apply eph_len|now apply eph_ok|].
    pose proof (dec_valid s b pk c0 c1 temp Ls Lb L0 L1) as Hd0. pose proof (Hd0 ltac:(assumption) ltac:(assumption) ltac:(assumption) ltac:(assumption) j c E Ec) as Hd.
    destruct (list_eq_dec Z.eq_dec c c0) as [->|N].
    + eexists; split; [|split; [exact Hd|]]; [right; exists j; auto|]. intros X. exfalso. now apply (X j).
    + exists s. split; [auto|split; auto].
  - exists s. split; [auto|split; auto]. apply dec_invalid; auto.
Qed.

Theorem dec_every s b pk c0 c1 temp : length s = msgb -> length b = skB -> length c0 = pkb -> length c1 = msgb -> length temp = msgb ->
  digits 256 s -> digits 256 c0 -> digits 256 c1 -> digits 256 temp -> digits 256 pk ->
  forall r, agree_B b c0 = Ok r -> (forall a, length a = skA -> digits 256 a -> exists c, keygen_A a = Ok c) ->
  let dc := dec (c0 ++ c1) (s ++ b ++ pk) temp in
  let recovered m := exists j, r = Some j /\ m = map (fun '(x, y) => Z.lxor x y) (combine c1 (H msgb j)) /\
    keygen_A (mask_last skA maskA (H skA (m ++ pk))) = Ok c0 in
  (forall m, recovered m -> dc = Ok (H ssb (m ++ c0 ++ c1))) /\
  ((forall m, ~ recovered m) -> dc = Ok (H ssb (s ++ c0 ++ c1))).
Proof.
  intros Ls Lb L0 L1 Lt Ds D0 D1 Dt Dp r E Hk dc recovered. subst dc. split.
  - intros m (j & -> & Em & Ec). fold (xor_bytes c1 (H msgb j)) in Em. subst m.
    pose proof (dec_valid s b pk c0 c1 temp Ls Lb L0 L1) as Hd0.
    rewrite (Hd0 ltac:(assumption) ltac:(assumption) ltac:(assumption) ltac:(assumption) j c0 E Ec).
    destruct (list_eq_dec Z.eq_dec c0 c0); [reflexivity|contradiction].
  - intros HN. destruct (dec_total s b pk c0 c1 temp Ls Lb L0 L1 Lt Ds D0 D1 Dt Dp r E Hk) as (x & _ & Hd & Hs).
    rewrite Hd, Hs; [reflexivity|]. intros j -> Hc. apply (HN (xor_bytes c1 (H msgb j))). exists j. repeat split. exact Hc.
Qed.

(** ** Correctness *)
Variable keygen_B : list Z -> out (list Z).
Variable agree_A : list Z -> list Z -> out (list Z).
Hypothesis pkB_bytes : forall a c, keygen_B a = Ok c -> length c = pkb /\ digits 256 c.
Notation keypair := (crypto_kem_keypair msgb skB maskB keygen_B).
Notation enc := (crypto_kem_enc msgb skA ssb maskA keygen_A agree_A).
Lemma keypair_inv tp pk sk tp' : digits 256 tp -> keypair tp = Ok (pk, sk, tp') ->
  exists s b, sk = s ++ b ++ pk /\ length s = msgb /\ length b = skB /\ digits 256 s /\ digits 256 b /\ keygen_B b = Ok pk /\ s = firstn msgb tp.
Proof.
  intros Dt E. unfold crypto_kem_keypair, rbytes in E.
  destruct (Nat.ltb_spec (length tp) msgb) as [|L1]; [discriminate|]. cbn [bind] in E.
  destruct (Nat.ltb_spec (length (skipn msgb tp)) skB) as [|L2]; [discriminate|]. cbn [bind] in E.
  destruct (keygen_B _) as [p| | | |] eqn:Ek; try discriminate. cbn [bind] in E.
  assert (E1 : pk = p) by congruence. subst p. assert (E2 : sk = firstn msgb tp ++ mask_last skB maskB (firstn skB (skipn msgb tp)) ++ pk) by congruence.
  exists (firstn msgb tp), (mask_last skB maskB (firstn skB (skipn msgb tp))).
  split; [exact E2|]. split; [apply firstn_length_le; lia|]. split; [rewrite mask_last_len; apply firstn_length_le; lia|].
  split; [apply digits_firstn; auto|]. split; [|auto]. apply mask_last_ok, digits_firstn, digits_skipn; auto.
Qed.
Lemma enc_inv pk tp ct ss tp' : digits 256 tp -> enc pk tp = Ok (ct, ss, tp') ->
  exists m, encapsulates msgb skA maskA keygen_A agree_A m pk ct /\ ss = H ssb (m ++ ct) /\ m = firstn msgb tp.
Proof.
  intros Dt E. unfold crypto_kem_enc, rbytes in E.
  destruct (Nat.ltb_spec (length tp) msgb) as [|L1]; [discriminate|]. cbn [bind] in E.
  destruct (keygen_A _) as [c0| | | |] eqn:Ek; try discriminate. cbn [bind] in E.
  destruct (agree_A _ _) as [j| | | |] eqn:Ej; try discriminate. cbn [bind] in E.
  exists (firstn msgb tp). split; [|split; [congruence|reflexivity]].
  split; [apply firstn_length_le; lia|]. split; [apply digits_firstn; auto|].
  eexists _, c0, j. split; [reflexivity|]. split; [exact Ek|]. split; [exact Ej|]. unfold xor_bytes in E. congruence.
Qed.
Hypothesis agree : kex_agree skA skB keygen_A keygen_B agree_A agree_B.

Theorem kem_reject tp tp' pk sk ct temp : digits 256 tp -> length temp = msgb -> digits 256 temp ->
  keypair tp = Ok (pk, sk, tp') -> length ct = (pkb + msgb)%nat -> digits 256 ct ->
  (forall a, length a = skA -> digits 256 a -> exists c, keygen_A a = Ok c) -> (forall b c, length b = skB -> length c = pkb -> digits 256 b -> digits 256 c -> exists r, agree_B b c = Ok r) -> (forall a, length a = skA -> digits 256 a -> exists j, agree_A a pk = Ok j) ->
  (forall m, ~ encapsulates msgb skA maskA keygen_A agree_A m pk ct) -> dec ct sk temp = Ok (H ssb (firstn msgb tp ++ ct)).
Proof.
  intros D Lt Dt Ek Lc Dc Tk Ta TA HN. destruct (keypair_inv _ _ _ _ D Ek) as (s & b & -> & Ls & Lb & Ds & Db & Hk & <-).
  assert (Ect : firstn pkb ct ++ skipn pkb ct = ct) by apply firstn_skipn.
  destruct (pkB_bytes _ _ Hk) as [Lp Dp].
  destruct (Ta b (firstn pkb ct)) as [r Er]; [auto|apply firstn_length_le; lia|auto|apply digits_firstn; auto|].
  destruct (dec_total s b pk (firstn pkb ct) (skipn pkb ct) temp Ls Lb) with (r := r) as (x & Hx & Hd & _); auto.
  { apply firstn_length_le. lia. } { rewrite skipn_length. lia. } { apply digits_firstn; auto. } { apply digits_skipn; auto. }
  rewrite Ect in Hd. rewrite Hd. destruct Hx as [->|(j & -> & Ex & Hc)]; [reflexivity|]. exfalso.
  assert (Dj : digits 256 j) by (apply (ssB_bytes b (firstn pkb ct) j); auto; [apply firstn_length_le; lia|apply digits_firstn; auto]).
  assert (L1 : length (skipn pkb ct) = msgb) by (rewrite skipn_length; lia).
  assert (LH : length (H msgb j) = msgb) by (apply H_len; auto).
  assert (Lx : length x = msgb) by (rewrite Ex, xor_bytes_len; lia).
  assert (Dx : digits 256 x) by (rewrite Ex; apply xor_bytes_ok; [apply digits_skipn; auto|apply H_ok; auto]).
  apply (HN x). split; [exact Lx|]. split; [exact Dx|].
  destruct (TA (eph skA maskA x pk)) as [j' E1]; [now apply eph_len|now apply eph_ok|].
  pose proof (agree _ b _ _ (eph_len x pk Dx Dp) Lb (eph_ok x pk Dx Dp) Db Hc Hk _ _ E1 Er) as X. subst j'.
  exists (eph skA maskA x pk), (firstn pkb ct), j. split; [reflexivity|]. split; [exact Hc|]. split; [exact E1|].
  rewrite <- Ect at 1. f_equal. fold (xor_bytes x (H msgb j)). rewrite Ex. symmetry. apply xor_twice. lia.
Qed.

Hypothesis ssA_bytes : forall a b j, length b = pkb -> digits 256 b -> agree_A a b = Ok j -> digits 256 j.
Lemma dec_enc s b pk m ct temp : length s = msgb -> length b = skB -> length temp = msgb -> digits 256 s -> digits 256 b -> digits 256 temp ->
  keygen_B b = Ok pk -> encapsulates msgb skA maskA keygen_A agree_A m pk ct -> not_rejected msgb skB pkb agree_B (s ++ b ++ pk) ct -> dec ct (s ++ b ++ pk) temp = Ok (H ssb (m ++ ct)).
Proof.
  intros Ls Lb Lt Ds Db Dt Ek (Lm & Dm & a & c0 & j & Ea & Ec & Ej & ->) [j' HB].
  fold (xor_bytes m (H msgb j)).
  destruct (pkB_bytes _ _ Ek) as [Lp Dp]. destruct (pkA_bytes _ _ Ec) as [L0 D0]. pose proof (ssA_bytes _ _ _ Lp Dp Ej) as Dj.
  fold (eph skA maskA m pk) in Ea. subst a.
  rewrite split_b in HB by auto. rewrite (split_c0 c0 _ L0) in HB.
  pose proof (agree _ b _ _ (eph_len m pk Dm Dp) Lb (eph_ok m pk Dm Dp) Db Ec Ek _ _ Ej HB) as X. subst j'.
  assert (LH : length (H msgb j) = msgb) by (apply H_len; auto).
  assert (Em : xor_bytes (xor_bytes m (H msgb j)) (H msgb j) = m) by (apply xor_twice; lia).
  rewrite (dec_valid s b pk c0 (xor_bytes m (H msgb j)) temp Ls Lb L0) with (j := j) (c0' := c0); auto.
  - rewrite Em. destruct (list_eq_dec Z.eq_dec c0 c0); [reflexivity|contradiction].
  - rewrite xor_bytes_len. lia.
  - apply xor_bytes_ok; auto. apply H_ok; auto.
  - now rewrite Em.
Qed.
Theorem kem_correct tp tp1 tp' tp1' pk sk ct ss temp : digits 256 tp -> digits 256 tp1 -> length temp = msgb -> digits 256 temp ->
  keypair tp = Ok (pk, sk, tp') -> enc pk tp1 = Ok (ct, ss, tp1') -> not_rejected msgb skB pkb agree_B sk ct -> dec ct sk temp = Ok ss.
Proof.
  intros D D1 Lt Dt Ek Ee HR. destruct (keypair_inv _ _ _ _ D Ek) as (s & b & -> & Ls & Lb & Ds & Db & Hk & _).
  destruct (enc_inv _ _ _ _ _ D1 Ee) as (m & Hm & -> & _). eapply dec_enc; eauto.
Qed.
End SikeP.
