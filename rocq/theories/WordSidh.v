(** SIDH on digit arrays. *)
From Coq Require Import Znumtheory Field.
From Verif Require Import Base BaseP Digits DigitsP Out Params Fp Wf FpP Fld FpRep FpMisc FpMiscP PrimeInst FpInst Ops Ec Models Sidh Sike SikeP Sim ModelsSim ProtoSim
  WordOps FieldOps WordSim CurveSpec ModelSpec XSpec WordCurve XIsog BasisP SidhP SidhSim.
Set Bullet Behavior "Strict Subproofs".

Section Half.
Variable P : params.
Hypothesis HW : Wf P.
Hypothesis Hp : prime (par_p P).
Local Notation p := (par_p P). Local Notation R := (par_R P). Local Notation val := (valB (2 ^ radix P)).
Local Notation rep := (FpRep.rep P). Local Notation srep := (FpRep.srep P). Local Notation toF := (FpRep.toF P).
Local Notation rep2 := (FpRep.rep2 P HW Hp).
Definition Fth17 := Fp_field p Hp.
Add Field FpFd17 : Fth17.
Ltac two := pose proof (ppos P HW) as Hpp; pose proof (Rhead P HW) as HRh; pose proof (Rpos P HW) as HRp.

Lemma rep_div2_g k a x : rep k a x -> 0 <= k <= 250 -> rep ((k + 2) / 2) (fpdiv2 P a) (fdiv x (mkF p 2)).
Proof.
  intros (O & B & E) Hk. two. pose proof (ok_bound P HW _ O) as Ba.
  assert (k * p <= 250 * p) by (apply Z.mul_le_mono_nonneg_r; lia).
  destruct (fpdiv2_val P HW a) as [Oc V]; auto; [lia|].
  pose proof (Z.mod_pos_bound (val a) 2 ltac:(lia)) as M. pose proof (p_odd P HW) as Od.
  assert (E2 : val a + val a mod 2 * p = 2 * val (fpdiv2 P a)).
  { rewrite V. apply Z_div_exact_2; [lia|].
    rewrite Zplus_mod, Zmult_mod, Zmod_mod. rewrite (Zmod_odd p), Od, Z.mul_1_r, Zmod_mod.
    rewrite <- Zplus_mod. replace (val a + val a) with (val a * 2) by ring. apply Z_mod_mult. }
  assert (val a mod 2 * p <= p) by (destruct (Z.eq_dec (val a mod 2) 0) as [->|]; [lia|];
    replace (val a mod 2) with 1 by lia; lia).
  split; [|split]; auto.
  - assert (k + 1 <= 2 * ((k + 2) / 2)) by (pose proof (Z.div_mod (k + 2) 2 ltac:(lia)); pose proof (Z.mod_pos_bound (k + 2) 2 ltac:(lia)); lia).
    assert ((k + 1) * p <= 2 * ((k + 2) / 2) * p) by (apply Z.mul_le_mono_nonneg_r; lia). lia.
  - apply (toF_intro P HW Hp). subst x.
    assert (X : fmul (mkF p 2) (mkF p (val (fpdiv2 P a))) = fmul (toF a) (mkF p R)).
    { rewrite <- mkF_mul, <- E2, val_add_mul. now rewrite (toF_R P HW Hp). }
    pose proof (two_ne0 P HW). transitivity (fdiv (fmul (mkF p 2) (mkF p (val (fpdiv2 P a)))) (mkF p 2)).
    + field. auto.
    + rewrite X. field. auto.
Qed.
Lemma rep2_div2_g k a x : rep2 k a x -> 0 <= k <= 250 -> rep2 ((k + 2) / 2) (fp2div2 P a) (qdiv (FP P HW Hp) x (q2 P HW Hp)).
Proof.
  intros [H1 H2] Hk. pose proof (two_ne0 P HW).
  assert (E : qdiv (FP P HW Hp) x (q2 P HW Hp) = (fdiv (fst x) (mkF p 2), fdiv (snd x) (mkF p 2))).
  { unfold qdiv, qmul, qinv, qnorm, q2; cbn [fst snd FP FpF K kmul kadd ksub kopp kinv].
    f_equal; field; auto. }
  rewrite E. split; cbn [fst snd fp2div2]; now apply rep_div2_g.
Qed.
(** A product of factors at most 8p is at most 3/2 p. *)
Lemma mul_small a b x y : rep 8 a x -> rep 8 b y -> 2 * val (fpmul_mont P a b) <= 3 * p.
Proof.
  intros (Oa & Ba & _) (Ob & Bb & _). two. pose proof (ok_bound P HW _ Oa) as Ba'. pose proof (ok_bound P HW _ Ob) as Bb'. pose proof (wf_head P HW) as Hh.
  assert (M : val a * val b <= 64 * (p * p)) by (replace (64 * (p * p)) with ((8 * p) * (8 * p)) by ring; apply Z.mul_le_mono_nonneg; lia).
  assert (L : 256 * (p * p) <= R * p) by (replace (256 * (p * p)) with (256 * p * p) by ring; apply Z.mul_le_mono_nonneg_r; lia).
  assert (0 < p * p) by (apply Z.mul_pos_pos; lia).
  destruct (fpmul_mont_val P HW a b) as (Oc & Bc & q & Hq & E); auto; [lia|].
  set (v := val (fpmul_mont P a b)) in *. assert (q * p <= R * p) by (apply Z.mul_le_mono_nonneg_r; lia).
  assert (4 * (R * v) <= 5 * (R * p)) by lia. assert (R * (4 * v) <= R * (5 * p)) by lia.
  assert (4 * v <= 5 * p) by (apply (Z.mul_le_mono_pos_l _ _ R); lia). lia.
Qed.
Lemma step_small s c x z : srep s x -> 2 * val s <= 3 * p -> rep 2 c z -> let u := fpsub P (mp_addfast P s s) c in
  rep 4 (fpadd P u u) (fadd (fsub (fadd x x) z) (fsub (fadd x x) z)).
Proof.
  intros Hs Bs Hc. cbv zeta. two. pose proof (srep_rep P _ _ Hs) as Hs2.
  assert (H2s : rep 3 (mp_addfast P s s) (fadd x x)).
  { destruct (rep_ladd P HW Hp 2 2 s s x x Hs2 Hs2 ltac:(lia)) as (O & B & E). split; [auto|]. split; [|auto].
    destruct Hs as (Os & Bs' & _). rewrite (proj2 (mp_addfast_val P HW s s Os Os ltac:(pose proof (ok_bound P HW _ Os); lia))). lia. }
  pose proof (rep_sub_g P HW Hp 3 2 _ _ _ _ H2s Hc ltac:(lia)) as Hu. change (Z.max 2 3) with 3 in Hu.
  exact (rep_add_g P HW Hp 3 3 _ _ _ _ Hu Hu ltac:(lia)).
Qed.
Lemma word_half : half_sim (word_sim P HW Hp).
Proof.
  split; [|split].
  - split; cbn [fst snd]; [apply (rep_one P HW Hp)|]. destruct (rep_zero P HW Hp) as (O & B & E). split; [auto|]. split; [|auto].
    change (snd (o_one (word_ops P))) with (fpzero P). pose proof (ppos P HW). rewrite val_zero. lia.
  - intros k a x Hk H. apply andb_prop in Hk as [H1 H2]. apply Z.leb_le in H1, H2.
    change (rep2 ((k + 2) / 2) (fp2div2 P a) (qdiv (FP P HW Hp) x (qadd (FP P HW Hp) (q1 (FP P HW Hp)) (q1 (FP P HW Hp))))).
    change (qadd (FP P HW Hp) (q1 (FP P HW Hp)) (q1 (FP P HW Hp))) with (kadd (k1 : FP2 P HW Hp) k1). rewrite (two_q P HW Hp). apply rep2_div2_g; auto.
  - intros a x c z Ha Hc. cbv zeta.
    pose proof (s_sqr _ _ (word_sim P HW Hp) 4 a x Ha eq_refl) as Hs. destruct a as [a0 a1], x as [x0 x1].
    destruct Ha as [A0 A1]. destruct Hc as [C0 C1]. cbn [fst snd] in A0, A1.
    change (o_sqr (word_ops P) (a0, a1)) with (fp2sqr_mont P (a0, a1)) in *.
    assert (B0 : 2 * val (fst (fp2sqr_mont P (a0, a1))) <= 3 * p).
    { unfold fp2sqr_mont. cbn [fst]. eapply mul_small; [apply (rep_ladd P HW Hp 4 4); eauto; lia|apply (rep_lsub4 P HW Hp 4 4); eauto; lia]. }
    assert (B1 : 2 * val (snd (fp2sqr_mont P (a0, a1))) <= 3 * p).
    { unfold fp2sqr_mont. cbn [snd]. eapply mul_small; [apply (rep_ladd P HW Hp 4 4); eauto; lia|]. eapply (rep_le P HW); eauto. lia. }
    destruct Hs as [S0 S1]. split; [exact (step_small _ _ _ _ S0 B0 C0)|exact (step_small _ _ _ _ S1 B1 C1)].
Qed.
End Half.

Lemma ok_inj {A} (a b : A) : Ok a = Ok b -> a = b. Proof. congruence. Qed.
Lemma some_inj {A} (a b : A) : Some a = Some b -> a = b. Proof. congruence. Qed.
Section WS.
Variable P : params.
Hypothesis HG : FpInst.good P.
Local Notation HW := (FpInst.HW P HG). Local Notation Hp := (FpInst.Hp P HG).
Local Notation OW := (word_ops P). Local Notation OF := (field_ops P HW Hp). Local Notation GF := (GF P HG).
Local Notation el := (el P HG). Local Notation rng := (rng P).
Local Notation enc := (qenc P HW Hp).
Definition gel (g : gens OW) : gens OF := @mkGens OF (el (gP g)) (el (gQ g)) (el (gR g)).
Definition grng (g : gens OW) : Prop := rng (gP g) /\ rng (gQ g) /\ rng (gR g).
(** The x-coordinates of P, Q and P - Q. *)
Definition x_of_basis (g : gens OW) (M N : point GF) : Prop :=
  xof M = XF (el (gP g)) /\ xof N = XF (el (gQ g)) /\ xof (padd (A0 GF) (k1 : GF) M (neg N)) = XF (el (gR g)).
(** The two generator tables: bases of the 2^e2- and the 3^e3-torsion of y^2 = x^3 + 6x^2 + x, with (0,0) a multiple of Q_A. *)
Definition torsion_gens (gA gB : gens OW) : Prop := grng gA /\ grng gB /\ exists PA QA PB QB : point GF,
  basis (A0 GF) (k1 : GF) 2 (e2 P) PA QA /\ pmul (A0 GF) (k1 : GF) (2 ^ (e2 P - 1)) QA = Aff k0 k0 /\
  basis (A0 GF) (k1 : GF) 3 (e3 P) PB QB /\ x_of_basis gA PA QA /\ x_of_basis gB PB QB.
Hypothesis HS : strat_good P.
Variables gA gB : gens OW.
Hypothesis HT : torsion_gens gA gB.

Lemma grel_gel g : grng g -> grel OW OF (word_sim P HW Hp) g (gel g).
Proof. intros (H1 & H2 & H3). split; [|split]; apply (el_rel P HG); auto. Qed.
Lemma key_len w sk : (1 <= digit_bytes w)%nat -> (length (key_digits w sk) * digit_bytes w >= length sk)%nat.
Proof.
  intros Hd. unfold key_digits. set (nd := ((length sk + digit_bytes w - 1) / digit_bytes w)%nat).
  assert (L : forall n b, length (digits_of_bytes w n b) = n) by (induction n as [|n IH]; intros b; cbn; [|rewrite IH]; auto).
  rewrite L. subst nd. pose proof (Nat.div_mod (length sk + digit_bytes w - 1) (digit_bytes w) ltac:(lia)) as E.
  pose proof (Nat.mod_upper_bound (length sk + digit_bytes w - 1) (digit_bytes w) ltac:(lia)). rewrite Nat.mul_comm. lia.
Qed.
Lemma key_readable sk (N : nat) : (N <= 8 * length sk)%nat -> readable P sk N.
Proof.
  intros HN i Hi. unfold ladder_bit.
  pose proof (wf_radix P HW) as W1. pose proof (wf_radix8 P HW) as W8.
  assert (Ew : Z.to_nat (radix P) = (8 * digit_bytes (radix P))%nat).
  { unfold digit_bytes. pose proof (Z.div_mod (radix P) 8 ltac:(lia)) as E. rewrite W8 in E. apply Nat2Z.inj. rewrite Nat2Z.inj_mul, !Z2Nat.id; lia. }
  assert (Hd : (1 <= digit_bytes (radix P))%nat) by lia.
  pose proof (key_len (radix P) sk Hd) as KL.
  assert (Hq : (i / Z.to_nat (radix P) < length (key_digits (radix P) sk))%nat).
  { apply Nat.div_lt_upper_bound; [lia|]. rewrite Ew. apply Nat.lt_le_trans with (8 * length sk)%nat; [lia|]. rewrite (Nat.mul_comm (8 * _)), Nat.mul_assoc, (Nat.mul_comm _ 8), <- Nat.mul_assoc. lia. }
  destruct (nth_error (key_digits (radix P) sk) (i / Z.to_nat (radix P))) as [d|] eqn:E; [eauto|].
  apply nth_error_None in E. lia.
Qed.
Definition pk_bytes : nat := (6 * fp_bytes P)%nat.
Definition ss_bytes : nat := (2 * fp_bytes P)%nat.
Lemma enc3_ok x1 x2 x3 : length (enc x1 ++ enc x2 ++ enc x3) = pk_bytes /\ digits 256 (enc x1 ++ enc x2 ++ enc x3).
Proof.
  destruct (enc_elem_ok P HG x1) as [D1 L1]. destruct (enc_elem_ok P HG x2) as [D2 L2]. destruct (enc_elem_ok P HG x3) as [D3 L3]. split.
  - rewrite !app_length. unfold pk_bytes. lia.
  - apply digits_app. split; auto. apply digits_app. auto.
Qed.
Lemma pk_shape pk : length pk = pk_bytes -> digits 256 pk -> pk_ok OW OF (word_sim P HW Hp) P pk.
Proof.
  unfold pk_bytes. intros L D. repeat split; try (apply digits_firstn; auto; apply digits_skipn; auto; fail); rewrite firstn_length, ?skipn_length; lia.
Qed.
Lemma pack3_enc (A B C : pt OF) : exists x1 x2 x3, pack3 OF A B C = enc x1 ++ enc x2 ++ enc x3.
Proof. unfold pack3. destruct (inv_3_way OF (pZ A) (pZ B) (pZ C)) as [[u v] t]. eexists _, _, _. reflexivity. Qed.
Lemma keygen_A_bytes sk c : EphemeralKeyGeneration_A OW P gA gB sk = Ok c -> length c = pk_bytes /\ digits 256 c.
Proof.
  destruct HT as (RA & RB & _). rewrite (keygen_A_sim OW OF (word_sim P HW Hp) (word_half P HW Hp) P gA gB (gel gA) (gel gB) (grel_gel gA RA) (grel_gel gB RB) sk).
  unfold EphemeralKeyGeneration_A. destruct (start_consts OF) as [[a c0] A]. destruct (LADDER3PT OF _ _ _ _ _ _ _) as [R| | | |]; try discriminate. cbn [bind].
  destruct (kex_iso_A OF P a c0 R _) as [[u l]| | | |]; try discriminate. cbn [bind].
  destruct l as [|q1 [|q2 [|q3 [|]]]]; try discriminate. intros E. destruct (pack3_enc q1 q2 q3) as (x1 & x2 & x3 & E1).
  assert (E2 : c = pack3 OF q1 q2 q3) by congruence. rewrite E2, E1. apply enc3_ok.
Qed.
Lemma keygen_B_bytes sk c : EphemeralKeyGeneration_B OW P gA gB sk = Ok c -> length c = pk_bytes /\ digits 256 c.
Proof.
  destruct HT as (RA & RB & _). rewrite (keygen_B_sim OW OF (word_sim P HW Hp) (word_half P HW Hp) P gA gB (gel gA) (gel gB) (grel_gel gA RA) (grel_gel gB RB) sk).
  unfold EphemeralKeyGeneration_B. destruct (start_consts OF) as [[a c0] A]. destruct (LADDER3PT OF _ _ _ _ _ _ _) as [R| | | |]; try discriminate. cbn [bind].
  destruct (kex_iso_B OF P c0 a R _) as [[u l]| | | |]; try discriminate. cbn [bind].
  destruct l as [|q1 [|q2 [|q3 [|]]]]; try discriminate. intros E. destruct (pack3_enc q1 q2 q3) as (x1 & x2 & x3 & E1).
  assert (E2 : c = pack3 OF q1 q2 q3) by congruence. rewrite E2, E1. apply enc3_ok.
Qed.
Lemma agree_A_bytes sk pk j : length pk = pk_bytes -> digits 256 pk -> EphemeralSecretAgreement_A OW P sk pk = Ok j -> length j = ss_bytes /\ digits 256 j.
Proof.
  intros L D. rewrite (agree_A_sim OW OF (word_sim P HW Hp) (word_half P HW Hp) P sk pk (pk_shape pk L D)).
  unfold EphemeralSecretAgreement_A. destruct (unpack3 OF P pk) as [[x0 x1] x2]. destruct (LADDER3PT OF _ _ _ _ _ _ _) as [R| | | |]; try discriminate. cbn [bind].
  destruct (kex_iso_A OF P _ _ R _) as [[[u v] l]| | | |]; try discriminate. cbn [bind]. intros E.
  apply ok_inj in E. rewrite <- E. destruct (enc_elem_ok P HG (j_inv OF (o_add OF (o_sub OF (o_madd OF u u) v) (o_sub OF (o_madd OF u u) v)) v)). split; auto.
Qed.
(** The two variants of Bob's agreement. *)
Lemma agree_B_ext differ square sk pk sike j : EphemeralSecretAgreement_B_extended OW P differ square sk pk sike = Ok (Some j) ->
  EphemeralSecretAgreement_B OW P differ square sk pk = Ok (Some j).
Proof.
  unfold EphemeralSecretAgreement_B, EphemeralSecretAgreement_B_extended. destruct (unpack3 OW P pk) as [[x0 x1] x2]. cbn [andb].
  destruct (sike && _); [discriminate|auto].
Qed.
Lemma agree_B_bytes differ square sk pk j : length pk = pk_bytes -> digits 256 pk -> EphemeralSecretAgreement_B OW P differ square sk pk = Ok (Some j) -> length j = ss_bytes /\ digits 256 j.
Proof.
  intros L D. rewrite (agree_B_sim OW OF (word_sim P HW Hp) (word_half P HW Hp) P sk pk differ (fun _ _ => false) square None (pk_shape pk L D)).
  unfold EphemeralSecretAgreement_B, EphemeralSecretAgreement_B_extended. destruct (unpack3 OF P pk) as [[x0 x1] x2]. cbn [andb].
  destruct (LADDER3PT OF _ _ _ _ _ _ _) as [R| | | |]; try discriminate. cbn [bind].
  destruct (kex_iso_B OF P _ _ R _) as [[[u v] l]| | | |]; try discriminate. cbn [bind]. intros E.
  apply ok_inj in E. apply some_inj in E. rewrite <- E. destruct (enc_elem_ok P HG (j_inv OF (o_add OF (o_add OF v u) (o_add OF v u)) (o_sub OF v u))). split; auto.
Qed.
Theorem sidh_agree_word skA skB differ square : length skA = skA_bytes P -> length skB = skB_bytes P -> exists pkA pkB s,
  EphemeralKeyGeneration_A OW P gA gB skA = Ok pkA /\ EphemeralKeyGeneration_B OW P gA gB skB = Ok pkB /\
  EphemeralSecretAgreement_A OW P skA pkB = Ok s /\ EphemeralSecretAgreement_B OW P differ square skB pkA = Ok (Some s) /\
  length pkA = pk_bytes /\ length pkB = pk_bytes /\ length s = ss_bytes /\ digits 256 pkA /\ digits 256 pkB /\ digits 256 s.
Proof.
  intros LA LB. pose proof HT as (RA & RB & PA & QA & PB & QB & bA & b0 & bB & (XA1 & XA2 & XA3) & (XB1 & XB2 & XB3)).
  assert (rA : readable P skA (e2 P)).
  { apply key_readable. rewrite LA. unfold skA_bytes. pose proof (Nat.div_mod (e2 P + 7) 8 ltac:(lia)). pose proof (Nat.mod_upper_bound (e2 P + 7) 8 ltac:(lia)). lia. }
  assert (rB : readable P skB (bob_bits P)).
  { apply key_readable. rewrite LB. unfold skB_bytes. pose proof (Nat.div_mod (bob_bits P + 7) 8 ltac:(lia)). pose proof (Nat.mod_upper_bound (bob_bits P + 7) 8 ltac:(lia)). lia. }
  destruct (sidh_agree GF (toF P (vunit P), f0) (qsqrt P HW Hp) (qlt P HW Hp) (qenc P HW Hp) (dec_val P HW Hp) (qrand P HW Hp) (two_nz P HG) P HS
    (gel gA) (gel gB) PA QA PB QB bA b0 bB XA1 XA2 XA3 XB1 XB2 XB3 (dec_enc P HG) (fun x => proj2 (enc_elem_ok P HG x)) skA skB (fun _ _ => false) None rA rB)
    as (x1 & x2 & x3 & y1 & y2 & y3 & z & E1 & E2 & E3 & E4).
  destruct (enc3_ok x1 x2 x3) as [L1 D1]. destruct (enc3_ok y1 y2 y3) as [L2 D2].
  exists (enc x1 ++ enc x2 ++ enc x3), (enc y1 ++ enc y2 ++ enc y3), (enc z).
  split; [exact (eq_trans (keygen_A_sim OW OF (word_sim P HW Hp) (word_half P HW Hp) P gA gB (gel gA) (gel gB) (grel_gel gA RA) (grel_gel gB RB) skA) E1)|].
  split; [exact (eq_trans (keygen_B_sim OW OF (word_sim P HW Hp) (word_half P HW Hp) P gA gB (gel gA) (gel gB) (grel_gel gA RA) (grel_gel gB RB) skB) E2)|].
  split; [exact (eq_trans (agree_A_sim OW OF (word_sim P HW Hp) (word_half P HW Hp) P skA _ (pk_shape _ L2 D2)) E3)|].
  split; [exact (eq_trans (agree_B_sim OW OF (word_sim P HW Hp) (word_half P HW Hp) P skB _ differ (fun _ _ => false) square None (pk_shape _ L1 D1)) E4)|].
  destruct (enc_elem_ok P HG z). repeat split; auto.
Qed.

(** ** The key encapsulation over this key exchange *)
Section Kem.
Variables (differ : T OW -> T OW -> bool) (square : option (T OW -> bool)).
Variables (msgb ssb : nat) (maskA maskB : Z).
Local Notation kgA := (EphemeralKeyGeneration_A OW P gA gB). Local Notation kgB := (EphemeralKeyGeneration_B OW P gA gB).
Local Notation agA := (EphemeralSecretAgreement_A OW P).
Local Notation agB := (fun b pk => EphemeralSecretAgreement_B_extended OW P differ square b pk true).
Lemma kex_agree_word : kex_agree (skA_bytes P) (skB_bytes P) kgA kgB agA agB.
Proof.
  intros a b pA pB La Lb _ _ EA EB j j' E1 E2. apply agree_B_ext in E2.
  destruct (sidh_agree_word a b differ square La Lb) as (pkA & pkB & s & X1 & X2 & X3 & X4 & _).
  assert (pA = pkA) by congruence. assert (pB = pkB) by congruence. subst. congruence.
Qed.
Theorem sike_word tp tp1 temp : digits 256 tp -> digits 256 tp1 -> (msgb + skB_bytes P <= length tp)%nat -> (msgb <= length tp1)%nat -> length temp = msgb -> digits 256 temp ->
  exists pk sk ct ss tp' tp1', crypto_kem_keypair msgb (skB_bytes P) maskB kgB tp = Ok (pk, sk, tp') /\
    crypto_kem_enc msgb (skA_bytes P) ssb maskA kgA agA pk tp1 = Ok (ct, ss, tp1') /\
    (not_rejected msgb (skB_bytes P) pk_bytes agB sk ct ->
     crypto_kem_dec msgb (skA_bytes P) (skB_bytes P) pk_bytes ssb maskA kgA agB ct sk temp = Ok ss).
Proof.
  intros D D1 L L1 Lt Dt. set (b := mask_last (skB_bytes P) maskB (firstn (skB_bytes P) (skipn msgb tp))).
  assert (Lb : length b = skB_bytes P) by (unfold b; rewrite mask_last_len, firstn_length, skipn_length; lia).
  destruct (sidh_agree_word (repeat 0 (skA_bytes P)) b differ square (repeat_length _ _) Lb) as (_ & pk & _ & _ & EB & _ & _ & _ & _ & _ & _ & Dpk & _).
  set (e := eph (skA_bytes P) maskA (firstn msgb tp1) pk).
  assert (Le : length e = skA_bytes P) by (apply eph_len; auto; now apply digits_firstn).
  destruct (sidh_agree_word e b differ square Le Lb) as (c0 & pk' & j & EA & EB' & EJ & _).
  assert (pk' = pk) by congruence. subst pk'.
  assert (EK : crypto_kem_keypair msgb (skB_bytes P) maskB kgB tp = Ok (pk, firstn msgb tp ++ b ++ pk, skipn (skB_bytes P) (skipn msgb tp))).
  { unfold crypto_kem_keypair, rbytes. destruct (Nat.ltb_spec (length tp) msgb); [lia|]. cbn [bind].
    destruct (Nat.ltb_spec (length (skipn msgb tp)) (skB_bytes P)) as [Y|Y]; [rewrite skipn_length in Y; lia|]. cbn [bind]. fold b. rewrite EB. reflexivity. }
  assert (EE : exists ct ss tp1', crypto_kem_enc msgb (skA_bytes P) ssb maskA kgA agA pk tp1 = Ok (ct, ss, tp1')).
  { unfold crypto_kem_enc, rbytes. destruct (Nat.ltb_spec (length tp1) msgb); [lia|]. cbn [bind]. cbv zeta. fold e. rewrite EA. cbn [bind]. rewrite EJ. cbn [bind]. eauto. }
  destruct EE as (ct & ss & tp1' & EE). exists pk, (firstn msgb tp ++ b ++ pk), ct, ss, (skipn (skB_bytes P) (skipn msgb tp)), tp1'.
  split; [exact EK|]. split; [exact EE|]. intros HN.
  refine (kem_correct msgb (skA_bytes P) (skB_bytes P) pk_bytes ssb maskA maskB kgA agB keygen_A_bytes _ kgB agA keygen_B_bytes kex_agree_word _ tp tp1 _ _ pk _ ct ss temp D D1 Lt Dt EK EE HN).
  - intros a c j' Lc Dc E. apply agree_B_ext in E. now apply (agree_B_bytes differ square a c j').
  - intros a c j' Lc Dc E. now apply (agree_A_bytes a c j').
Qed.
End Kem.
End WS.
