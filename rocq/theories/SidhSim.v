(** SIDH (Sidh.v) respects simulations: key generation and agreement give the same bytes. *)
From Verif Require Import Base Out Params Ops Ec Models Sidh Sim ModelsSim ProtoSim.
Set Bullet Behavior "Strict Subproofs".

(** Three facts beyond [sim]: one is at most the modulus, halving keeps track of larger bounds, and 2 (2 s - c) for a
    square s stays small because a product is at most 3/2 of the modulus (sidh.c:264-266). *)
Definition half_sim {O1 O2} (S : sim O1 O2) : Prop :=
  rel S 1 (o_one O1) (o_one O2) /\
  (forall k a x, (0 <=? k) && (k <=? 250) = true -> rel S k a x -> rel S ((k + 2) / 2) (o_div2 O1 a) (o_div2 O2 x)) /\
  (forall a x c z, rel S 4 a x -> rel S 2 c z ->
    let u := o_sub O1 (o_madd O1 (o_sqr O1 a) (o_sqr O1 a)) c in let v := o_sub O2 (o_madd O2 (o_sqr O2 x) (o_sqr O2 x)) z in
    rel S 4 (o_add O1 u u) (o_add O2 v v)).

Section SidhSim.
Variables (O1 O2 : fops) (S : sim O1 O2).
Hypothesis HH : half_sim S.
Notation rel := (rel S). Notation srel := (srel S). Notation prel := (prel _ _ S). Notation psrel := (psrel _ _ S).
Notation bytes_ok := (bytes_ok S).
Ltac start f := intros; repeat match goal with H : prel _ _ _ |- _ => destruct H | H : psrel _ _ |- _ => destruct H end;
  unfold f; cbv zeta; cbn [pX pZ fst snd co0 co1 co2].
Ltac pts := split; cbn [pX pZ]; bnds.
Lemma one1 : rel 1 (o_one O1) (o_one O2). Proof. apply HH. Qed.

Lemma xDBL_sim8 P Q a b c d : prel 2 P Q -> rel 8 a c -> rel 4 b d -> psrel (xDBL O1 P a b) (xDBL O2 Q c d).
Proof. start xDBL. pts. Qed.
Lemma xTPL_sim8 P Q a b c d : prel 2 P Q -> rel 4 a c -> rel 8 b d -> psrel (xTPL O1 P a b) (xTPL O2 Q c d).
Proof. start xTPL. pts. Qed.
Lemma xDBLe_sim8 e P Q a b c d : prel 2 P Q -> rel 8 a c -> rel 4 b d -> prel 2 (xDBLe O1 P a b e) (xDBLe O2 Q c d e).
Proof.
  intros H Ha Hb. unfold xDBLe. induction e as [|e IH]; auto.
  change (prel 2 (xDBL O1 (Nat.iter e (fun Q => xDBL O1 Q a b) P) a b) (xDBL O2 (Nat.iter e (fun Q => xDBL O2 Q c d) Q) c d)).
  apply ps_rel, xDBL_sim8; auto.
Qed.
Lemma xTPLe_sim8 e P Q a b c d : prel 2 P Q -> rel 4 a c -> rel 8 b d -> prel 2 (xTPLe O1 P a b e) (xTPLe O2 Q c d e).
Proof.
  intros H Ha Hb. unfold xTPLe. induction e as [|e IH]; auto.
  change (prel 2 (xTPL O1 (Nat.iter e (fun Q => xTPL O1 Q a b) P) a b) (xTPL O2 (Nat.iter e (fun Q => xTPL O2 Q c d) Q) c d)).
  apply ps_rel, xTPL_sim8; auto.
Qed.
Lemma xDBLADD_sim3 P Q P' Q' a b c x y z : prel 2 P P' -> prel 2 Q Q' -> rel 2 a x -> rel 2 b y -> rel 3 c z ->
  psrel (fst (xDBLADD O1 P Q a b c)) (fst (xDBLADD O2 P' Q' x y z)) /\
  psrel (snd (xDBLADD O1 P Q a b c)) (snd (xDBLADD O2 P' Q' x y z)).
Proof. start xDBLADD. split; pts. Qed.

Lemma j_inv_sim4 a c x z : rel 4 a x -> rel 2 c z -> srel (j_inv O1 a c) (j_inv O2 x z).
Proof. start j_inv. bnds. Qed.

(** ** The ladder *)
Lemma A24_sim a x : rel 6 a x -> rel 3 (lad3_A24 O1 a) (lad3_A24 O2 x).
Proof.
  intros H. unfold lad3_A24. cbv zeta. pose proof one1 as H1.
  assert (H8 : rel 8 (o_madd O1 a (o_madd O1 (o_one O1) (o_one O1))) (o_madd O2 x (o_madd O2 (o_one O2) (o_one O2)))).
  { eapply (s_madd _ _ S 6 2); auto. eapply (s_madd _ _ S 1 1); auto. }
  destruct HH as (_ & HD & _). apply (HD 5); [reflexivity|]. apply (HD 8); auto.
Qed.
Lemma lad3_loop_sim w m a x k : rel 3 a x -> forall i b R0 R0' R2 R2' R R', prel 2 R0 R0' -> prel 2 R2 R2' -> prel 2 R R' ->
  out_rel (fun u v => fst (fst (fst u)) = fst (fst (fst v)) /\ prel 2 (snd (fst u)) (snd (fst v)) /\ prel 2 (snd u) (snd v))
    (lad3_loop O1 w m a k i b R0 R2 R) (lad3_loop O2 w m x k i b R0' R2' R').
Proof.
  intros Ha. induction k as [|k IH]; intros i b R0 R0' R2 R2' R R' H0 H2 H; cbn [lad3_loop].
  { constructor. cbn. auto. }
  apply (out_bind eq); [destruct (ladder_bit w m i); constructor; reflexivity|]. intros c c' <-.
  assert (HS : prel 2 (fst (swap_points O1 (xorb c b) R R2)) (fst (swap_points O2 (xorb c b) R' R2')) /\
               prel 2 (snd (swap_points O1 (xorb c b) R R2)) (snd (swap_points O2 (xorb c b) R' R2'))).
  { unfold swap_points. destruct (xorb c b); cbn; auto. }
  destruct (swap_points O1 _ _ _) as [U V]; destruct (swap_points O2 _ _ _) as [U' V']. cbn [fst snd] in HS. destruct HS as [HU HV].
  destruct (xDBLADD_sim3 R0 V R0' V' (pX U) (pZ U) a (pX U') (pZ U') x H0 HV (proj1 HU) (proj2 HU) Ha) as [D1 D2].
  destruct (xDBLADD O1 _ _ _ _ _) as [W1 W2]; destruct (xDBLADD O2 _ _ _ _ _) as [W1' W2']. cbn [fst snd] in D1, D2.
  apply IH; auto; now apply ps_rel.
Qed.
Lemma LADDER3PT_sim w m n a b c d x y z u : rel 2 a x -> rel 2 b y -> rel 2 c z -> rel 6 d u ->
  out_rel (prel 2) (LADDER3PT O1 w a b c m n d) (LADDER3PT O2 w x y z m n u).
Proof.
  intros Ha Hb Hc Hd. unfold LADDER3PT.
  assert (Hone : rel 2 (o_one O1) (o_one O2)) by apply s_rel_one.
  eapply out_bind; [apply lad3_loop_sim; [now apply A24_sim|split; cbn [pX pZ]; eassumption|split; cbn [pX pZ]; eassumption|split; cbn [pX pZ]; eassumption]|].
  intros [[[p R0] R2] R] [[[p' R0'] R2'] R'] (E & H2 & HR). cbn [fst snd] in *. subst p'. constructor. unfold swap_points. destruct p; auto.
Qed.

(** ** The strategy loops *)
Section Trav.
Variables (RC : T O1 * T O1 -> T O2 * T O2 -> Prop).
Variables (mul1 : T O1 * T O1 -> nat -> pt O1 -> pt O1) (mul2 : T O2 * T O2 -> nat -> pt O2 -> pt O2).
Variables (get1 : pt O1 -> (T O1 * T O1) * coeff3 O1) (get2 : pt O2 -> (T O2 * T O2) * coeff3 O2).
Variables (ev1 : coeff3 O1 -> pt O1 -> pt O1) (ev2 : coeff3 O2 -> pt O2 -> pt O2).
Variables maxr maxint : nat.
Hypothesis Hmul : forall c d m P Q, RC c d -> prel 2 P Q -> prel 2 (mul1 c m P) (mul2 d m Q).
Hypothesis Hget : forall P Q, prel 2 P Q -> RC (fst (get1 P)) (fst (get2 Q)) /\ co_rel _ _ S (snd (get1 P)) (snd (get2 Q)).
Hypothesis Hev : forall c d P Q, co_rel _ _ S c d -> prel 2 P Q -> psrel (ev1 c P) (ev2 d Q).
Definition srelp (a : pt O1 * nat) (b : pt O2 * nat) : Prop := prel 2 (fst a) (fst b) /\ snd a = snd b.
Lemma descendL_sim fuel c d bound index P Q st st' strat :
  RC c d -> prel 2 P Q -> Forall2 srelp st st' ->
  out_rel (fun a b => fst (fst (fst a)) = fst (fst (fst b)) /\ prel 2 (snd (fst (fst a))) (snd (fst (fst b))) /\
    Forall2 srelp (snd (fst a)) (snd (fst b)) /\ snd a = snd b)
    (descend _ _ mul1 maxint fuel c bound index P st strat) (descend _ _ mul2 maxint fuel d bound index Q st' strat).
Proof.
  intros Hc. revert index P Q st st' strat.
  induction fuel as [|fuel IH]; intros index P Q st st' strat HP Hst; cbn [descend].
  - destruct (_ <? _)%nat; constructor. split; [|split; [|split]]; auto.
  - destruct (_ <? _)%nat; [|constructor; split; [|split; [|split]]; auto].
    rewrite (F2_length _ _ _ Hst). destruct (_ <? _)%nat; [|constructor].
    destruct strat; [constructor|]. apply IH; auto. constructor; auto. split; auto.
Qed.
Definition relL (a : (T O1 * T O1) * pt O1 * list (pt O1)) (b : (T O2 * T O2) * pt O2 * list (pt O2)) : Prop :=
  prel 2 (snd (fst a)) (snd (fst b)) /\ Forall2 (prel 2) (snd a) (snd b).
Lemma F2_map (f : pt O1 -> pt O1) (g : pt O2 -> pt O2) l l' : (forall P Q, prel 2 P Q -> prel 2 (f P) (g Q)) ->
  Forall2 (prel 2) l l' -> Forall2 (prel 2) (map f l) (map g l').
Proof. intros H. induction 1; cbn; constructor; auto. Qed.
Lemma rowsL_sim kk : forall row c d index P Q q q' st st' strat,
  RC c d -> prel 2 P Q -> Forall2 (prel 2) q q' -> Forall2 srelp st st' ->
  out_rel relL (rowsL _ _ _ mul1 get1 ev1 maxr maxint kk row c index P q st strat)
               (rowsL _ _ _ mul2 get2 ev2 maxr maxint kk row d index Q q' st' strat).
Proof.
  induction kk as [|kk IH]; intros row c d index P Q q q' st st' strat Hc HP Hq Hst; cbn [rowsL].
  - constructor. split; auto.
  - eapply out_bind; [apply descendL_sim; eauto|].
    intros [[[i1 R1] s1] t1] [[[i2 R2] s2] t2] (E1 & HR & Hs & E2). cbn [fst snd] in *. subst i2 t2.
    destruct (Hget _ _ HR) as [G1 G2].
    destruct (get1 R1) as [c1 co1], (get2 R2) as [c2 co2]. cbn [fst snd] in *.
    assert (Hs' : Forall2 srelp (map (fun s => (ev1 co1 (fst s), snd s)) s1) (map (fun s => (ev2 co2 (fst s), snd s)) s2)).
    { clear - Hs Hev G2. induction Hs as [|x y ? ? [Hx Hy]]; cbn [map]; constructor; auto.
      split; cbn [fst snd]; auto. apply ps_rel. now apply Hev. }
    destruct Hs' as [|[x ix] [y iy] l l' [Hx Ex] Hl]; [constructor|]. cbn [fst snd] in *. subst iy.
    apply IH; auto. apply F2_map; auto. intros. apply ps_rel. now apply Hev.
Qed.
End Trav.
Variable P : params.
Definition relK (a : (T O1 * T O1) * list (pt O1)) (b : (T O2 * T O2) * list (pt O2)) : Prop :=
  cs_rel _ _ S 2 (fst a) (fst b) /\ Forall2 (prel 2) (snd a) (snd b).
Definition relKA (a : (T O1 * T O1) * list (pt O1)) (b : (T O2 * T O2) * list (pt O2)) : Prop :=
  relK a b /\ exists s t, rel 4 s t /\ fst (fst a) = o_sqr O1 s /\ fst (fst b) = o_sqr O2 t.
Lemma get_4_sqr R R' : prel 2 R R' -> exists s t, rel 4 s t /\ fst (fst (get_4_isog O1 R)) = o_sqr O1 s /\ fst (fst (get_4_isog O2 R')) = o_sqr O2 t.
Proof. intros [H1 H2]. eexists _, _. split; [|split; reflexivity]. bnd2. Qed.
Lemma tail_A_sim a c x z R R' Q Q' : rel 8 a x -> rel 4 c z -> prel 2 R R' -> Forall2 (prel 2) Q Q' ->
  out_rel relKA (do (_, R, Qs) <- traverseL O1 _ _ (mulm_A O1) (get_4_isog O1) (eval_4_isog O1) (max_alice P) (max_int_alice P) (a, c) R Q (strat_alice P);;
    let '(c, coeff) := get_4_isog O1 R in Ok (c, map (eval_4_isog O1 coeff) Qs))
   (do (_, R, Qs) <- traverseL O2 _ _ (mulm_A O2) (get_4_isog O2) (eval_4_isog O2) (max_alice P) (max_int_alice P) (x, z) R' Q' (strat_alice P);;
    let '(c, coeff) := get_4_isog O2 R in Ok (c, map (eval_4_isog O2 coeff) Qs)).
Proof.
  intros H1 H2 H3 H4. eapply out_bind.
  - unfold traverseL. eapply (rowsL_sim (fun u v => rel 8 (fst u) (fst v) /\ rel 4 (snd u) (snd v)) (mulm_A O1) (mulm_A O2) (get_4_isog O1) (get_4_isog O2) (eval_4_isog O1) (eval_4_isog O2)).
    + intros u v m V W [] HV. unfold mulm_A. apply xDBLe_sim8; auto.
    + intros V W HV. destruct (get_4_sim _ _ S V W HV) as [[G1 G2] G3]. split; auto. split; (eapply s_le; [|eassumption]; reflexivity).
    + intros. now apply eval_4_sim.
    + split; auto.
    + exact H3.
    + exact H4.
    + constructor.
  - intros [[u R2] r1] [[v R2'] r2] [HR2 Hr]. cbn [fst snd] in *. destruct (get_4_sim _ _ S R2 R2' HR2) as [G1 G3]. pose proof (get_4_sqr R2 R2' HR2) as G4.
    destruct (get_4_isog O1 R2) as [u1 co], (get_4_isog O2 R2') as [v1 co']. cbn [fst snd] in *. constructor. split; [|exact G4]. split; cbn [fst snd]; auto.
    apply F2_map; auto. intros. apply ps_rel. now apply eval_4_sim.
Qed.
Lemma kex_A_sim a c x z R R' Q Q' : rel 8 a x -> rel 4 c z -> prel 2 R R' -> Forall2 (prel 2) Q Q' ->
  out_rel relKA (kex_iso_A O1 P a c R Q) (kex_iso_A O2 P x z R' Q').
Proof.
  intros Ha Hc HR HQ. unfold kex_iso_A. destruct (Nat.odd (e2 P)); [|now apply tail_A_sim]. cbv zeta.
  pose proof (xDBLe_sim8 (e2 P - 1) _ _ _ _ _ _ HR Ha Hc) as HS. destruct (get_2_sim _ _ S _ _ HS) as [G1 G2].
  destruct (get_2_isog O1 (xDBLe O1 R a c (e2 P - 1))) as [a1 c1], (get_2_isog O2 (xDBLe O2 R' x z (e2 P - 1))) as [x1 z1]. cbn [fst snd] in *.
  apply tail_A_sim.
  - eapply s_le; [|exact G1]; reflexivity.
  - eapply s_le; [|apply s_rel; exact G2]; reflexivity.
  - apply ps_rel. now apply eval_2_sim.
  - apply F2_map; auto. intros. apply ps_rel. now apply eval_2_sim.
Qed.
Lemma kex_B_sim a c x z R R' Q Q' : rel 4 a x -> rel 8 c z -> prel 2 R R' -> Forall2 (prel 2) Q Q' ->
  out_rel relK (kex_iso_B O1 P a c R Q) (kex_iso_B O2 P x z R' Q').
Proof.
  intros Ha Hc HR HQ. unfold kex_iso_B. eapply out_bind.
  - unfold traverseL. eapply (rowsL_sim (fun u v => rel 4 (fst u) (fst v) /\ rel 8 (snd u) (snd v)) (mulm_B O1) (mulm_B O2) (get_3_isog O1) (get_3_isog O2) (eval_3_isog O1) (eval_3_isog O2)).
    + intros u v m V W [] HV. unfold mulm_B. apply xTPLe_sim8; auto.
    + intros V W HV. destruct (get_3_sim _ _ S V W HV) as [[G1 G2] G3]. split; auto. split; (eapply s_le; [|eassumption]; reflexivity).
    + intros. now apply eval_3_sim.
    + split; auto.
    + exact HR.
    + exact HQ.
    + constructor.
  - intros [[u R2] r1] [[v R2'] r2] [HR2 Hr]. cbn [fst snd] in *. destruct (get_3_sim _ _ S R2 R2' HR2) as [G1 G3].
    destruct (get_3_isog O1 R2) as [u1 co], (get_3_isog O2 R2') as [v1 co']. cbn [fst snd] in *. constructor. split; cbn [fst snd]; auto.
    apply F2_map; auto. intros. apply ps_rel. now apply eval_3_sim.
Qed.

(** ** Keys and secrets *)
Lemma start_sim : rel 8 (fst (fst (start_consts O1))) (fst (fst (start_consts O2))) /\
  rel 4 (snd (fst (start_consts O1))) (snd (fst (start_consts O2))) /\ rel 6 (snd (start_consts O1)) (snd (start_consts O2)).
Proof.
  pose proof one1 as H1. unfold start_consts. cbn [fst snd].
  pose proof (s_madd _ _ S 1 1 _ _ _ _ H1 H1 eq_refl) as H2. pose proof (s_madd _ _ S 2 2 _ _ _ _ H2 H2 eq_refl) as H4.
  split; [exact (s_madd _ _ S 4 4 _ _ _ _ H4 H4 eq_refl)|]. split; [exact H4|]. exact (s_madd _ _ S 2 4 _ _ _ _ H2 H4 eq_refl).
Qed.
Lemma pack3_sim A B C A' B' C' : prel 2 A A' -> prel 2 B B' -> prel 2 C C' -> pack3 O1 A B C = pack3 O2 A' B' C'.
Proof.
  intros [A1 A2] [B1 B2] [C1 C2]. unfold pack3. destruct (inv_3_sim _ _ S _ _ _ _ _ _ A2 B2 C2) as (I1 & I2 & I3).
  destruct (inv_3_way O1 _ _ _) as [[u v] t], (inv_3_way O2 _ _ _) as [[u' v'] t']. cbn [fst snd] in *.
  rewrite (s_enc _ _ S (o_mul O1 (pX A) u) (o_mul O2 (pX A') u')) by bnd.
  rewrite (s_enc _ _ S (o_mul O1 (pX B) v) (o_mul O2 (pX B') v')) by bnd.
  rewrite (s_enc _ _ S (o_mul O1 (pX C) t) (o_mul O2 (pX C') t')) by bnd. reflexivity.
Qed.
Definition grel (g : gens O1) (h : gens O2) : Prop := rel 2 (gP g) (gP h) /\ rel 2 (gQ g) (gQ h) /\ rel 2 (gR g) (gR h).
Variables (gA gB : gens O1) (hA hB : gens O2).
Hypothesis HgA : grel gA hA.
Hypothesis HgB : grel gB hB.
Lemma gpts g h : grel g h -> Forall2 (prel 2) [mkPt (gP g) (o_one O1); mkPt (gQ g) (o_one O1); mkPt (gR g) (o_one O1)]
  [mkPt (gP h) (o_one O2); mkPt (gQ h) (o_one O2); mkPt (gR h) (o_one O2)].
Proof. intros (H1 & H2 & H3). pose proof (s_rel_one _ _ S) as H0. repeat constructor; cbn [pX pZ]; auto. Qed.
Lemma keygen_A_sim sk : EphemeralKeyGeneration_A O1 P gA gB sk = EphemeralKeyGeneration_A O2 P hA hB sk.
Proof.
  apply ProtoSim.out_rel_eq. unfold EphemeralKeyGeneration_A. destruct start_sim as (S1 & S2 & S3).
  destruct (start_consts O1) as [[a c] A], (start_consts O2) as [[x z] B]. cbn [fst snd] in *. pose proof HgA as (G1 & G2 & G3).
  eapply out_bind; [apply LADDER3PT_sim; eassumption|]. intros R R' HR.
  eapply out_bind; [apply kex_A_sim; eauto; apply gpts; eassumption|]. intros [u l] [v l'] [[_ HF] _]. cbn [snd] in HF.
  destruct HF as [|p q l l' H1 HF]; [constructor|]. destruct HF as [|p2 q2 l l' H2 HF]; [constructor|]. destruct HF as [|p3 q3 l l' H3 HF]; [constructor|].
  destruct HF; constructor. now apply pack3_sim.
Qed.
Lemma keygen_B_sim sk : EphemeralKeyGeneration_B O1 P gA gB sk = EphemeralKeyGeneration_B O2 P hA hB sk.
Proof.
  apply ProtoSim.out_rel_eq. unfold EphemeralKeyGeneration_B. destruct start_sim as (S1 & S2 & S3).
  destruct (start_consts O1) as [[a c] A], (start_consts O2) as [[x z] B]. cbn [fst snd] in *. pose proof HgB as (G1 & G2 & G3).
  eapply out_bind; [apply LADDER3PT_sim; eassumption|]. intros R R' HR.
  eapply out_bind; [apply kex_B_sim; eauto; apply gpts; eassumption|]. intros [u l] [v l'] [_ HF]. cbn [snd] in HF.
  destruct HF as [|p q l l' H1 HF]; [constructor|]. destruct HF as [|p2 q2 l l' H2 HF]; [constructor|]. destruct HF as [|p3 q3 l l' H3 HF]; [constructor|].
  destruct HF; constructor. now apply pack3_sim.
Qed.
(** The three packed elements of a public key have the right shape. *)
Definition pk_ok (pk : list Z) : Prop := let k := (2 * fp_bytes P)%nat in
  bytes_ok (firstn k pk) /\ bytes_ok (firstn k (skipn k pk)) /\ bytes_ok (firstn k (skipn (2 * k) pk)).
Lemma unpack3_sim pk : pk_ok pk -> rel 2 (fst (fst (unpack3 O1 P pk))) (fst (fst (unpack3 O2 P pk))) /\
  rel 2 (snd (fst (unpack3 O1 P pk))) (snd (fst (unpack3 O2 P pk))) /\ rel 2 (snd (unpack3 O1 P pk)) (snd (unpack3 O2 P pk)).
Proof. intros (H1 & H2 & H3). unfold unpack3. cbn [fst snd]. repeat split; apply s_rel, (s_dec _ _ S); auto. Qed.
Lemma agree_A_sim sk pk : pk_ok pk -> EphemeralSecretAgreement_A O1 P sk pk = EphemeralSecretAgreement_A O2 P sk pk.
Proof.
  intros Hpk. apply ProtoSim.out_rel_eq. unfold EphemeralSecretAgreement_A. destruct (unpack3_sim pk Hpk) as (U1 & U2 & U3).
  destruct (unpack3 O1 P pk) as [[x0 x1] x2], (unpack3 O2 P pk) as [[y0 y1] y2]. cbn [fst snd] in *.
  pose proof (get_A_sim _ _ S _ _ _ _ _ _ U1 U2 U3) as GA. pose proof (s_rel _ _ S _ _ GA) as GA2. pose proof one1 as H1.
  pose proof (s_madd _ _ S 1 1 _ _ _ _ H1 H1 eq_refl) as H2. pose proof (s_madd _ _ S 2 2 _ _ _ _ H2 H2 eq_refl) as H4.
  pose proof (s_madd _ _ S 2 2 _ _ _ _ GA2 H2 eq_refl) as H5. cbn [Z.add Pos.add] in *.
  eapply out_bind; [apply LADDER3PT_sim; eauto; eapply s_le; [|exact GA2]; reflexivity|]. intros R R' HR.
  eapply out_bind; [apply kex_A_sim; eauto; eapply s_le; [|exact H5]; reflexivity|].
  intros [[u1 u2] l] [[v1 v2] l'] [[[HU HV] _] (s & t & Hst & Es & Et)]. cbn [fst snd] in *. constructor. apply (s_enc _ _ S). apply s_rel. apply j_inv_sim4; auto.
  subst u1 v1. exact (proj2 (proj2 HH) s t u2 v2 Hst HV).
Qed.
Lemma agree_B_sim sk pk differ1 differ2 square1 square2 : pk_ok pk ->
  EphemeralSecretAgreement_B O1 P differ1 square1 sk pk = EphemeralSecretAgreement_B O2 P differ2 square2 sk pk.
Proof.
  intros Hpk. apply ProtoSim.out_rel_eq. unfold EphemeralSecretAgreement_B, EphemeralSecretAgreement_B_extended. destruct (unpack3_sim pk Hpk) as (U1 & U2 & U3).
  destruct (unpack3 O1 P pk) as [[x0 x1] x2], (unpack3 O2 P pk) as [[y0 y1] y2]. cbn [fst snd andb] in *.
  pose proof (get_A_sim _ _ S _ _ _ _ _ _ U1 U2 U3) as GA. pose proof (s_rel _ _ S _ _ GA) as GA2. pose proof one1 as H1.
  pose proof (s_madd _ _ S 1 1 _ _ _ _ H1 H1 eq_refl) as H2.
  pose proof (s_madd _ _ S 2 2 _ _ _ _ GA2 H2 eq_refl) as H5. pose proof (s_msub _ _ S 2 2 _ _ _ _ GA2 H2 eq_refl) as H6. cbn [Z.add Pos.add] in *.
  eapply out_bind; [apply LADDER3PT_sim; eauto; eapply s_le; [|exact GA2]; reflexivity|]. intros R R' HR.
  eapply out_bind; [apply kex_B_sim; eauto; eapply s_le; [|exact H5]; reflexivity|].
  intros [[u1 u2] l] [[v1 v2] l'] [[HU HV] _]. cbn [fst snd] in *. constructor. f_equal. apply (s_enc _ _ S). apply s_rel. apply j_inv_sim.
  - eapply (s_add _ _ S 2 2); [|  |reflexivity]; eapply (s_add _ _ S 2 2); auto.
  - eapply (s_sub _ _ S 2 2); auto.
Qed.
End SidhSim.
