(** Two products reduced together, in registers and for any number of words: rounds in which a multiple of a and a
    multiple of c are added, then the step of the reduction. *)
From Verif Require Import Base BaseP Asm AsmP AsmRedP.

Local Notation LW l := (W ^ Z.of_nat (length l)) (only parsing).

Lemma mops_incl C C' s M l : incl C' C -> forall k, mops C s M k l -> mops C' s M k l.
Proof.
  intros I. induction l as [|x l IH]; intros k; cbn [mops]; auto. intros [H1 H2]. split; auto.
  intros s2 F. apply H1. eapply frame_incl; eauto.
Qed.
Lemma rot_len zs : length (rot zs) = length zs.
Proof. destruct zs; cbn [rot]; auto. rewrite app_length. cbn. lia. Qed.
Lemma rots_length n : forall zs, length (rots n zs) = length zs.
Proof. induction n as [|n IH]; intros zs; cbn [rots]; auto. now rewrite IH, rot_len. Qed.
Lemma rots_regs T0 T1 n : forall zs, regs_ok T0 T1 zs -> regs_ok T0 T1 (rots n zs).
Proof. induction n as [|n IH]; intros zs H; cbn [rots]; auto. apply IH. now apply rot_ok. Qed.
Lemma clob_rots T0 T1 n : forall zs, incl (clob T0 T1 (rots n zs)) (clob T0 T1 zs).
Proof. induction n as [|n IH]; intros zs; cbn [rots]; [apply incl_refl|]. eapply incl_tran; [apply IH|]. apply clob_rot. Qed.
Lemma mops_at C s M : forall l k e, mops C s M k (l ++ [e]) -> mops C s M k l /\ holds C s (M (8 * (k + Z.of_nat (length l)))) e.
Proof.
  induction l as [|x l IH]; intros k e; cbn [mops app length].
  - rewrite Z.add_0_r. tauto.
  - intros [H1 H2]. apply IH in H2 as [H2 H3]. split; auto.
    now replace (k + Z.of_nat (S (length l))) with (k + 1 + Z.of_nat (length l)) by lia.
Qed.

Section Dbl.
Variables (Pm : Z -> opnd) (hs : list Z) (zw : nat) (p : Z) (T0 T1 : reg).
Hypothesis HT : T0 <> T1.
Hypothesis HX0 : RDX <> T0.
Hypothesis HX1 : RDX <> T1.
Hypothesis HA0 : RAX <> T0.
Hypothesis HA1 : RAX <> T1.
Hypothesis HP : forall C s, mops C s Pm 0 hs.
Hypothesis Hh : Forall word hs.
Hypothesis Hzw : (1 <= zw)%nat.
Hypothesis Hhs : hs <> [].
Hypothesis Hp1 : p + 1 = W ^ Z.of_nat zw * valB W hs.
Hypothesis Hp : 0 < p.
Local Notation clob := (clob T0 T1).
Local Notation regs_ok := (regs_ok T0 T1).
Local Notation addm := (addm T0 T1).
Local Notation red := (red Pm zw T0 T1).

Variables (Ma Mc : Z -> opnd) (as_ cs : list Z).
Hypothesis Wa : Forall word as_.
Hypothesis Wc : Forall word cs.
Hypothesis Lac : length cs = length as_.
Let a := valB W as_.
Let c := valB W cs.
Let N := a + c + p.

Definition dadd (bo dp : opnd) (zs : list reg) : list instr := addm bo Ma (last zs RAX) zs ++ addm dp Mc RAX zs.
Definition dround (bo dp : opnd) (zs : list reg) : list instr := dadd bo dp zs ++ red zs.

Lemma a_nonneg : 0 <= a. Proof. apply (valB_nonneg _ Wa). Qed.
Lemma c_nonneg : 0 <= c. Proof. apply (valB_nonneg _ Wc). Qed.

(** The second sum, the registers holding anything. *)
Lemma addc_ok dp d zs s : (2 <= length zs)%nat -> length zs = S (length as_) -> regs_ok zs ->
  holds (clob zs) s dp d -> mops (clob zs) s Mc 0 cs -> word d -> words s zs ->
  let t := valr s zs + d * c in t < LW zs ->
  let s' := run (addm dp Mc RAX zs) s in
  frame (clob zs) s s' /\ words s' zs /\ valr s' zs = t /\ cf s' = 0 /\ (2 * t < LW zs -> ovf s' = 0).
Proof.
  intros L2 Lm HR Hd HM Wd Hw t Ht s'. assert (HR' := HR). destruct HR' as (_ & _ & _ & _ & NA).
  assert (Sc : forall r, In r zs -> rg (setr s RAX 0) r = rg s r) by (intros r Hr; apply rg_set_ne; intros ->; tauto).
  destruct (addm_ok T0 T1 HT HX0 HX1 HA0 HA1 dp Mc RAX zs d cs s) as (F1 & W1 & E1 & C1 & O1); auto.
  - now rewrite Lac.
  - eapply words_same; eauto.
  - rewrite (valr_same s _ zs Sc). exact Ht.
  - rewrite (valr_same s _ zs Sc) in E1, O1. auto.
Qed.

Lemma dadd_ok bo b dp d zs s : (2 <= length zs)%nat -> length zs = S (length as_) -> regs_ok zs ->
  holds (clob zs) s bo b -> holds (clob zs) s dp d -> mops (clob zs) s Ma 0 as_ -> mops (clob zs) s Mc 0 cs ->
  word b -> word d -> words s (removelast zs) -> valr s (removelast zs) < N -> N <= LW as_ ->
  let t := valr s (removelast zs) + b * a + d * c in
  let s' := run (dadd bo dp zs) s in
  frame (clob zs) s s' /\ words s' zs /\ valr s' zs = t /\ 0 <= t < W * N - (W - 1) * p /\ cf s' = 0 /\
  (2 * N <= LW as_ -> ovf s' = 0).
Proof.
  intros L2 Lm HR Hb Hd HMa HMc Wb Wd Hw HV HN t s'.
  assert (NE : zs <> []) by (destruct zs; [cbn in L2; lia|discriminate]).
  set (z := last zs RAX) in *. set (ys := removelast zs) in *.
  assert (EZ : zs = ys ++ [z]) by (now apply app_removelast_last).
  assert (Nz : ~ In z ys). { destruct HR as (ND & _). rewrite EZ in ND. apply NoDup_remove_2 in ND. now rewrite app_nil_r in ND. }
  destruct (clear_last Pm hs zw HP Hzw ys z s Nz) as [V0 W0]. rewrite <- EZ in V0, W0. specialize (W0 Hw).
  pose proof (valr_bound s ys Hw) as VB. pose proof W_2 as HW2. pose proof a_nonneg as A0. pose proof c_nonneg as C0.
  assert (LZ : LW zs = W * LW as_) by (rewrite Lm; apply pw_S).
  assert (B1 : b * a <= (W - 1) * a) by (apply Z.mul_le_mono_nonneg_r; unfold word in Wb; lia).
  assert (B2 : d * c <= (W - 1) * c) by (apply Z.mul_le_mono_nonneg_r; unfold word in Wd; lia).
  assert (P1 : 0 <= b * a) by (apply Z.mul_nonneg_nonneg; unfold word in Wb; lia).
  assert (P2 : 0 <= d * c) by (apply Z.mul_nonneg_nonneg; unfold word in Wd; lia).
  assert (P3 : 0 < (W - 1) * p) by (apply Z.mul_pos_pos; lia).
  assert (EN : W * N = N + (W - 1) * a + (W - 1) * c + (W - 1) * p) by (unfold N; ring).
  assert (B3 : W * N <= LW zs) by (rewrite LZ; apply Z.mul_le_mono_nonneg_l; [discriminate|auto]).
  assert (TB : 0 <= t < W * N - (W - 1) * p) by (unfold t; lia).
  destruct (addm_ok T0 T1 HT HX0 HX1 HA0 HA1 bo Ma z zs b as_ s) as (F1 & W1 & E1 & _ & _); auto.
  { right. rewrite EZ. apply in_or_app. right. now left. }
  { rewrite V0. fold a. lia. }
  rewrite V0 in E1. fold a in E1. set (s1 := run (addm bo Ma z zs) s) in *.
  assert (Et : valr s1 zs + d * c = t) by (rewrite E1; reflexivity).
  destruct (addc_ok dp d zs s1) as (F2 & W2 & E2 & C2 & O2); auto.
  - eapply holds_frame; eauto.
  - eapply mops_frame; eauto.
  - rewrite Et. lia.
  - assert (Es : s' = run (addm dp Mc RAX zs) s1) by (unfold s', dadd; now rewrite run_app). rewrite Es.
    rewrite Et in E2, O2. split; [eapply frame_trans; eauto|]. split; auto. split; auto. split; auto. split; auto.
    intros H2. apply O2. rewrite LZ.
    assert (W * (2 * N) <= W * LW as_) by (apply Z.mul_le_mono_nonneg_l; [discriminate|auto]). lia.
Qed.

Lemma dround_ok bo b dp d zs s : length zs = (zw + S (length hs))%nat -> length zs = S (length as_) -> regs_ok zs ->
  holds (clob zs) s bo b -> holds (clob zs) s dp d -> mops (clob zs) s Ma 0 as_ -> mops (clob zs) s Mc 0 cs ->
  word b -> word d -> words s (removelast zs) -> valr s (removelast zs) < N -> N <= LW as_ ->
  let s' := run (dround bo dp zs) s in
  frame (clob zs) s s' /\ words s' (tl zs) /\ 0 <= valr s' (tl zs) < N /\
  exists m, word m /\ W * valr s' (tl zs) = valr s (removelast zs) + b * a + d * c + m * p.
Proof.
  intros L Lm HR Hb Hd HMa HMc Wb Wd Hw HV HN s'.
  destruct (dadd_ok bo b dp d zs s) as (F1 & W1 & E1 & TB & _); auto. { rewrite L. lia. }
  set (t := valr s (removelast zs) + b * a + d * c) in *. set (s1 := run (dadd bo dp zs) s) in *.
  set (m := rg s1 (hd RAX zs)). assert (Wm : word m).
  { eapply words_in; [exact W1|]. destruct zs; [cbn in L; lia|now left]. }
  assert (LZ : LW zs = W * LW as_) by (rewrite Lm; apply pw_S).
  assert (B3 : W * N <= LW zs) by (rewrite LZ; apply Z.mul_le_mono_nonneg_l; [discriminate|auto]).
  assert (Mp : m * p <= (W - 1) * p) by (apply Z.mul_le_mono_nonneg_r; unfold word in Wm; lia).
  destruct (red_ok Pm hs zw p T0 T1 HT HX0 HX1 HA0 HA1 HP Hh Hzw Hhs Hp1 zs s1) as (F2 & W2 & E2); auto.
  { fold m. rewrite E1. lia. }
  fold m in E2. rewrite E1 in E2.
  assert (Es : s' = run (red zs) s1) by (unfold s', dround; now rewrite run_app). rewrite Es.
  split; [eapply frame_trans; eauto|]. split; [exact W2|]. split.
  - pose proof (valr_bound _ _ W2) as [V2 _]. split; auto. apply Z.mul_lt_mono_pos_l with W; [reflexivity|]. rewrite E2. lia.
  - exists m. split; auto.
Qed.

Variables Mb Md : Z -> opnd.
Fixpoint drounds (k : Z) (n : nat) (zs : list reg) : list instr :=
  match n with O => [] | S n => dround (Mb (8 * k)) (Md (8 * k)) zs ++ drounds (k + 1) n (rot zs) end.

Lemma drounds_ok C : forall bs ds k zs s, length bs = length ds -> incl (clob zs) C ->
  length zs = (zw + S (length hs))%nat -> length zs = S (length as_) -> regs_ok zs ->
  mops C s Mb k bs -> mops C s Md k ds -> mops C s Ma 0 as_ -> mops C s Mc 0 cs -> Forall word bs -> Forall word ds ->
  words s (removelast zs) -> valr s (removelast zs) < N -> N <= LW as_ ->
  let s' := run (drounds k (length bs) zs) s in
  let rs := removelast (rots (length bs) zs) in
  frame C s s' /\ words s' rs /\ 0 <= valr s' rs < N /\
  exists m, 0 <= m < LW bs /\ LW bs * valr s' rs = valr s (removelast zs) + a * valB W bs + c * valB W ds + m * p.
Proof.
  induction bs as [|b bs IH]; intros [|d ds] k zs s LE IC L Lm HR HB HD HMa HMc Wb Wd Hw HV HN s' rs; try discriminate.
  - unfold s', rs. cbn [length drounds run rots valB]. change (W ^ Z.of_nat 0) with 1.
    pose proof (valr_bound _ _ Hw). repeat split; auto; try lia. exists 0. lia.
  - cbn [mops] in HB, HD. destruct HB as [HB HB']. destruct HD as [HD HD'].
    inversion_clear Wb as [|? ? Wb0 Wb']. inversion_clear Wd as [|? ? Wd0 Wd'].
    assert (H0 : holds (clob zs) s (Mb (8 * k)) b) by (intros s2 F; apply HB; eapply frame_incl; eauto).
    assert (H1 : holds (clob zs) s (Md (8 * k)) d) by (intros s2 F; apply HD; eapply frame_incl; eauto).
    assert (HMa' : mops (clob zs) s Ma 0 as_) by (eapply mops_incl; eauto).
    assert (HMc' : mops (clob zs) s Mc 0 cs) by (eapply mops_incl; eauto).
    destruct (dround_ok (Mb (8 * k)) b (Md (8 * k)) d zs s) as (F1 & W1 & V1 & m & Wm & E1); auto.
    set (s1 := run (dround (Mb (8 * k)) (Md (8 * k)) zs) s) in *.
    assert (F1' : frame C s s1) by (eapply frame_incl; eauto).
    assert (RL : removelast (rot zs) = tl zs). { destruct zs; auto. apply removelast_rot. }
    destruct (IH ds (k + 1) (rot zs) s1) as (F2 & W2 & V2 & m2 & Wm2 & E2); auto.
    + eapply incl_tran; [exact (proj1 (clob_rot T0 T1 zs))|exact IC].
    + now rewrite rot_len.
    + now rewrite rot_len.
    + now apply rot_ok.
    + eapply mops_frame; eauto.
    + eapply mops_frame; eauto.
    + eapply mops_frame; eauto.
    + eapply mops_frame; eauto.
    + now rewrite RL.
    + rewrite RL. lia.
    + assert (Es : s' = run (drounds (k + 1) (length bs) (rot zs)) s1).
      { unfold s'. cbn [length drounds]. now rewrite run_app. }
      change (removelast (rots (length bs) (rot zs))) with rs in W2, V2, E2. rewrite <- Es in F2, W2, V2, E2.
      split; [eapply frame_trans; eauto|]. split; auto. split; auto. exists (m + W * m2). cbn [length]. rewrite pw_S. split.
      * unfold word in Wm. pose proof (pw_pos (length bs)). nia.
      * rewrite RL in E2. cbn [valB].
        transitivity (W * (W ^ Z.of_nat (length bs) * valr s' rs)); [ring|]. rewrite E2.
        transitivity (W * valr s1 (tl zs) + W * (a * valB W bs + c * valB W ds + m2 * p)); [ring|]. rewrite E1. ring.
Qed.

(** All of it but the last step of the reduction; the registers hold a b0 at the start. *)
Definition dmont (n : nat) (zs : list reg) : list instr :=
  addm (Md (8 * 0)) Mc RAX zs ++ red zs ++ drounds 1 n (rot zs) ++
  dadd (Mb (8 * (1 + Z.of_nat n))) (Md (8 * (1 + Z.of_nat n))) (rots (S n) zs).

Lemma dmont_ok C b bs be d ds de zs s : length bs = length ds -> incl (clob zs) C ->
  length zs = (zw + S (length hs))%nat -> length zs = S (length as_) -> regs_ok zs ->
  mops C s Mb 0 (b :: bs ++ [be]) -> mops C s Md 0 (d :: ds ++ [de]) -> mops C s Ma 0 as_ -> mops C s Mc 0 cs ->
  Forall word (b :: bs ++ [be]) -> Forall word (d :: ds ++ [de]) ->
  words s zs -> valr s zs = b * a -> 2 * N <= LW as_ ->
  let s' := run (dmont (length bs) zs) s in
  let rs := rots (S (length bs)) zs in
  frame C s s' /\ words s' rs /\ 0 <= valr s' rs < W * N - (W - 1) * p /\ cf s' = 0 /\ ovf s' = 0 /\
  exists m, 0 <= m < LW (b :: bs) /\
    LW (b :: bs) * valr s' rs = a * valB W (b :: bs ++ [be]) + c * valB W (d :: ds ++ [de]) + m * p.
Proof.
  intros LE IC L Lm HR HB HD HMa HMc Wb Wd Hw HV HN2 s' rs.
  destruct HB as [HB0 HB]. destruct HD as [HD0 HD]. apply mops_at in HB as [HB HBe]. apply mops_at in HD as [HD HDe].
  inversion_clear Wb as [|? ? Wb0 Wb1]. apply Forall_app in Wb1 as [Wb1 Wbe]. inversion_clear Wbe as [|? ? Wbe' _].
  inversion_clear Wd as [|? ? Wd0 Wd1]. apply Forall_app in Wd1 as [Wd1 Wde]. inversion_clear Wde as [|? ? Wde' _].
  pose proof a_nonneg as A0. pose proof c_nonneg as C0. pose proof W_2 as HW2.
  assert (N0 : 0 < N) by (unfold N; lia). assert (HN : N <= LW as_) by lia.
  assert (L2 : (2 <= length zs)%nat) by lia.
  assert (LZ : LW zs = W * LW as_) by (rewrite Lm; apply pw_S).
  assert (B1 : b * a <= (W - 1) * a) by (apply Z.mul_le_mono_nonneg_r; unfold word in Wb0; lia).
  assert (B2 : d * c <= (W - 1) * c) by (apply Z.mul_le_mono_nonneg_r; unfold word in Wd0; lia).
  assert (EN : W * N = N + (W - 1) * a + (W - 1) * c + (W - 1) * p) by (unfold N; ring).
  assert (B3 : W * N <= LW zs) by (rewrite LZ; apply Z.mul_le_mono_nonneg_l; [discriminate|auto]).
  assert (P3 : 0 < (W - 1) * p) by (apply Z.mul_pos_pos; lia).
  assert (EN' : 0 < N) by auto.
  (* the first words *)
  destruct (addc_ok (Md (8 * 0)) d zs s) as (F1 & W1 & E1 & _); auto.
  { intros s2 F. apply HD0. eapply frame_incl; eauto. }
  { eapply mops_incl; eauto. }
  { rewrite HV. lia. }
  rewrite HV in E1. set (s1 := run (addm (Md (8 * 0)) Mc RAX zs) s) in *.
  set (m0 := rg s1 (hd RAX zs)). assert (Wm0 : word m0).
  { eapply words_in; [exact W1|]. destruct zs; [cbn in L; lia|now left]. }
  assert (Mp : m0 * p <= (W - 1) * p) by (apply Z.mul_le_mono_nonneg_r; unfold word in Wm0; lia).
  destruct (red_ok Pm hs zw p T0 T1 HT HX0 HX1 HA0 HA1 HP Hh Hzw Hhs Hp1 zs s1) as (F2 & W2 & E2); auto.
  { fold m0. rewrite E1. lia. }
  fold m0 in E2. rewrite E1 in E2. set (s2 := run (red zs) s1) in *.
  assert (F12 : frame C s s2) by (eapply frame_incl; [exact IC|]; eapply frame_trans; eauto).
  assert (RL : removelast (rot zs) = tl zs). { destruct zs; auto. apply removelast_rot. }
  (* the rounds *)
  destruct (drounds_ok C bs ds 1 (rot zs) s2) as (F3 & W3 & V3 & m & Hm & E3); auto.
  { eapply incl_tran; [exact (proj1 (clob_rot T0 T1 zs))|exact IC]. }
  { now rewrite rot_len. } { now rewrite rot_len. } { now apply rot_ok. }
  { eapply mops_frame; eauto. } { eapply mops_frame; eauto. } { eapply mops_frame; eauto. } { eapply mops_frame; eauto. }
  { now rewrite RL. }
  { rewrite RL. apply Z.mul_lt_mono_pos_l with W; [reflexivity|]. rewrite E2. lia. }
  rewrite RL in E3. set (s3 := run (drounds 1 (length bs) (rot zs)) s2) in *.
  change (rots (length bs) (rot zs)) with rs in W3, V3, E3.
  assert (F13 : frame C s s3) by (eapply frame_trans; eauto).
  assert (ICr : incl (clob rs) C) by (eapply incl_tran; [apply clob_rots|exact IC]).
  (* the last words *)
  destruct (dadd_ok (Mb (8 * (1 + Z.of_nat (length bs)))) be (Md (8 * (1 + Z.of_nat (length bs)))) de rs s3)
    as (F4 & W4 & E4 & T4 & C4 & O4); auto.
  { unfold rs. now rewrite rots_length. } { unfold rs. now rewrite rots_length. } { now apply rots_regs. }
  { intros t F. apply HBe. eapply frame_trans; [exact F13|]. eapply frame_incl; eauto. }
  { rewrite LE. intros t F. apply HDe. eapply frame_trans; [exact F13|]. eapply frame_incl; eauto. }
  { eapply mops_incl; [exact ICr|]. eapply mops_frame; eauto. }
  { eapply mops_incl; [exact ICr|]. eapply mops_frame; eauto. }
  { lia. }
  assert (Es : s' = run (dadd (Mb (8 * (1 + Z.of_nat (length bs)))) (Md (8 * (1 + Z.of_nat (length bs)))) rs) s3).
  { unfold s', dmont. now rewrite !run_app. }
  rewrite Es. split; [eapply frame_trans; [exact F13|]; eapply frame_incl; eauto|]. split; auto.
  split; [rewrite E4; exact T4|]. split; auto. split; [auto|]. exists (m0 + W * m). cbn [length]. rewrite pw_S. split.
  - unfold word in Wm0. pose proof (pw_pos (length bs)) as PW. clear - Wm0 Hm PW HW2.
    set (Q := W ^ Z.of_nat (length bs)) in *. clearbody Q. clearbody m0. nia.
  - rewrite E4. cbn [valB]. rewrite !valB_app. cbn [valB]. rewrite LE in *.
    set (Q := W ^ Z.of_nat (length ds)) in *.
    transitivity (W * (Q * valr s3 (removelast rs)) + W * Q * (be * a + de * c)); [ring|]. rewrite E3.
    transitivity (W * valr s2 (tl zs) + W * (a * valB W bs + c * valB W ds + m * p) + W * Q * (be * a + de * c)); [ring|].
    rewrite E2. ring.
Qed.
End Dbl.
