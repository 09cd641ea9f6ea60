(** Montgomery multiplication in registers, for any number of words: one step of the reduction (the number in the
    registers z becomes (z + z0 p)/2^64), a round (a multiple of a is added first) and all the rounds. *)
From Verif Require Import Base BaseP Asm AsmP.

Local Notation LW l := (W ^ Z.of_nat (length l)) (only parsing).
Lemma pw_pos (k : nat) : 0 < W ^ Z.of_nat k.
Proof. apply Z.pow_pos_nonneg; [reflexivity|lia]. Qed.
Lemma pw_S (k : nat) : W ^ Z.of_nat (S k) = W * W ^ Z.of_nat k.
Proof. rewrite Nat2Z.inj_succ, Z.pow_succ_r by lia. reflexivity. Qed.
Lemma pw_add (i j : nat) : W ^ Z.of_nat (i + j) = W ^ Z.of_nat i * W ^ Z.of_nat j.
Proof. rewrite Nat2Z.inj_add, Z.pow_add_r by lia. reflexivity. Qed.

Section Red.
Variables (Pm : Z -> opnd) (hs : list Z) (zw : nat) (p : Z) (T0 T1 : reg).
Hypothesis HT : T0 <> T1.
Hypothesis HX0 : RDX <> T0.
Hypothesis HX1 : RDX <> T1.
Hypothesis HA0 : RAX <> T0.
Hypothesis HA1 : RAX <> T1.
(** The words of (p+1)/2^(64 zw). *)
Hypothesis HP : forall C s, mops C s Pm 0 hs.
Hypothesis Hh : Forall word hs.
Hypothesis Hzw : (1 <= zw)%nat.
Hypothesis Hhs : hs <> [].
Hypothesis Hp1 : p + 1 = W ^ Z.of_nat zw * valB W hs.
Hypothesis Hp : 0 < p.

(** mov rdx, Z0; MULADD64x256 p1, Z3, ..., Z7 *)
Definition red (zs : list reg) : list instr :=
  MOV RDX (Rg (hd RAX zs)) :: redadd Pm T0 T1 RAX (skipn zw zs).
Definition regs_ok (zs : list reg) : Prop :=
  NoDup zs /\ ~ In T0 zs /\ ~ In T1 zs /\ ~ In RDX zs /\ ~ In RAX zs.
Definition clob (zs : list reg) : list reg := RAX :: RDX :: T0 :: T1 :: zs.

Lemma incl_skip (l : list reg) k : incl (skipn k l) l.
Proof. intros x H. rewrite <- (firstn_skipn k l). apply in_or_app. now right. Qed.
Lemma nodup_app (l1 l2 : list reg) : NoDup (l1 ++ l2) -> NoDup l2 /\ forall x, In x l1 -> ~ In x l2.
Proof.
  induction l1 as [|x l1 IH]; cbn [app]; intros H; [split; auto|].
  inversion H as [|? ? N D]; subst. destruct (IH D) as [D2 X]. split; auto.
  intros y [<-|Hy]; [|now apply X]. intros Hy. apply N, in_or_app. now right.
Qed.

Lemma red_ok zs s : length zs = (zw + S (length hs))%nat -> regs_ok zs -> words s zs ->
  valr s zs + rg s (hd RAX zs) * p < LW zs ->
  let s' := run (red zs) s in
  frame (clob zs) s s' /\ words s' (tl zs) /\ W * valr s' (tl zs) = valr s zs + rg s (hd RAX zs) * p.
Proof.
  intros L (ND & N0 & N1 & NX & NA) Hw HB s'.
  destruct zs as [|z0 zs]; [cbn in L; lia|]. cbn [hd tl] in *.
  set (s1 := setr s RDX (rg s z0)).
  assert (Hs1 : forall r, In r (z0 :: zs) -> rg s1 r = rg s r).
  { intros r Hr. apply rg_set_ne. intros ->. tauto. }
  assert (W1 : words s1 (z0 :: zs)) by (eapply words_same; eauto).
  assert (W0 : word (rg s z0)) by (eapply words_in; [exact Hw|now left]).
  destruct zw as [|k] eqn:Ek; [lia|]. cbn [skipn] in *.
  set (A := firstn k zs). set (B := skipn k zs). assert (EZ : zs = A ++ B) by (symmetry; apply firstn_skipn).
  assert (LA : length A = k). { unfold A. rewrite firstn_length. cbn [length] in L. lia. }
  assert (LB : length B = S (length hs)). { unfold B. rewrite skipn_length. cbn [length] in L. lia. }
  assert (NB : NoDup B /\ forall x, In x A -> ~ In x B). { apply nodup_app. rewrite <- EZ. now inversion ND. }
  destruct NB as [NB NAB].
  assert (IB : forall r, In r B -> In r (z0 :: zs)) by (intros r Hr; right; rewrite EZ; apply in_or_app; now right).
  assert (IA : forall r, In r A -> In r (z0 :: zs)) by (intros r Hr; right; rewrite EZ; apply in_or_app; now left).
  assert (VS : valr s (z0 :: zs) = rg s z0 + W * (valr s A + W ^ Z.of_nat k * valr s B)).
  { rewrite valr_cons. rewrite EZ at 1. now rewrite valr_app, LA. }
  assert (D1 : rg s1 RDX = rg s z0) by apply rg_set.
  assert (WA : words s A). { unfold words. apply Forall_forall. intros r Hr. eapply words_in; eauto. }
  assert (WB : words s1 B). { unfold words. apply Forall_forall. intros r Hr. eapply words_in; eauto. }
  pose proof (valr_bound s A WA) as BA.
  assert (QE : LW (z0 :: zs) = W * (W ^ Z.of_nat k * LW B)).
  { cbn [length]. rewrite pw_S. f_equal. rewrite EZ, app_length, LA. apply pw_add. }
  destruct (redadd_ok Pm T0 T1 RAX HT HX0 HX1 HA0 HA1 ltac:(discriminate) (clob (z0 :: zs)) B hs s1) as (F2 & W2 & E2).
  - rewrite LB. destruct hs; [congruence|]. cbn [length]. lia.
  - intros H. apply NA. auto.
  - unfold clob. intros r Hr. cbn [In] in Hr |- *. destruct Hr as [H|[H|[H|H]]]; auto. do 4 right. apply IB in H. exact H.
  - exact NB.
  - intros H. apply N0. auto.
  - intros H. apply N1. auto.
  - intros H. apply NX. auto.
  - exact LB.
  - apply HP.
  - exact Hh.
  - exact WB.
  - now rewrite D1.
  - rewrite D1, (valr_same s s1 B) by auto. rewrite QE, VS in HB.
    rewrite pw_S in Hp1. set (Q := W ^ Z.of_nat k) in *. set (X := LW B) in *.
    assert (HQ : 0 < Q) by apply pw_pos.
    assert (Y : W * (Q * (valr s B + rg s z0 * valB W hs)) < W * (Q * X)).
    { apply Z.le_lt_trans with (rg s z0 + W * (valr s A + Q * valr s B) + rg s z0 * p); auto.
      replace p with (W * Q * valB W hs - 1) by lia.
      replace (rg s z0 + W * (valr s A + Q * valr s B) + rg s z0 * (W * Q * valB W hs - 1))
        with (W * valr s A + W * (Q * (valr s B + rg s z0 * valB W hs))) by ring.
      assert (0 <= W * valr s A) by (apply Z.mul_nonneg_nonneg; [discriminate|lia]). lia. }
    apply Z.mul_lt_mono_pos_l in Y; [|reflexivity]. apply Z.mul_lt_mono_pos_l in Y; auto.
  - assert (Es : s' = run (redadd Pm T0 T1 RAX B) s1) by (unfold s', red; rewrite Ek; reflexivity). rewrite Es. clear s' Es.
    set (s' := run (redadd Pm T0 T1 RAX B) s1) in *.
    assert (RA : forall r, In r A -> rg s' r = rg s r).
    { intros r Hr. destruct F2 as (_ & _ & _ & R2). rewrite R2; [now apply Hs1, IA|].
      pose proof (IA r Hr) as Hr'. intros [H|[H|[H|H]]]; [rewrite <- H in Hr'; tauto..|]. apply (NAB r); auto. }
    split; [|split].
    + eapply frame_trans; [apply (frame_set (clob (z0 :: zs)) s RDX (rg s z0)); cbn; auto|].
      eapply frame_incl; [|exact F2]. unfold clob. intros r Hr. cbn [In] in Hr |- *.
      destruct Hr as [H|[H|[H|H]]]; auto. do 4 right. apply IB in H. exact H.
    + rewrite EZ. apply Forall_app. split; auto. eapply words_same; eauto.
    + rewrite EZ at 1. rewrite valr_app, LA, E2, D1, (valr_same s s' A RA), (valr_same s s1 B) by auto.
      rewrite VS. replace p with (W ^ Z.of_nat (S k) * valB W hs - 1) by lia. rewrite pw_S. ring.
Qed.

(** ** Adding a multiple *)
(** mov rdx, b; MULADD64xN a, ...: with the last register also as C, and with rax as C. *)
Definition addm (bo : opnd) (M : Z -> opnd) (c : reg) (zs : list reg) : list instr :=
  MOV RDX bo :: muladd M T0 T1 c zs.

Lemma addm_ok bo M c zs b ms s : (2 <= length zs)%nat -> regs_ok zs -> c = RAX \/ In c zs -> length zs = S (length ms) ->
  holds (clob zs) s bo b -> mops (clob zs) s M 0 ms -> word b -> Forall word ms -> words (setr s c 0) zs ->
  let t := valr (setr s c 0) zs + b * valB W ms in
  t < LW zs ->
  let s' := run (addm bo M c zs) s in
  frame (clob zs) s s' /\ words s' zs /\ valr s' zs = t /\ cf s' = 0 /\ (2 * t < LW zs -> ovf s' = 0).
Proof.
  intros L2 (ND & N0 & N1 & NX & NA) Hc L Hb HM Wb Wm Hw t Ht s'.
  set (s1 := setr s RDX b).
  assert (CX : RDX <> c). { destruct Hc as [->|Hc]; [discriminate|]. intros E. subst c. tauto. }
  assert (C0 : c <> T0). { destruct Hc as [->|Hc]; auto. intros ->. tauto. }
  assert (C1 : c <> T1). { destruct Hc as [->|Hc]; auto. intros ->. tauto. }
  assert (F1 : frame (clob zs) s s1) by (apply frame_set; cbn; auto).
  assert (Sc : forall r, In r zs -> rg (setr s1 c 0) r = rg (setr s c 0) r).
  { intros r Hr. destruct (reg_eq_dec r c) as [->|Nr]; [now rewrite !rg_set|]. rewrite !rg_set_ne by auto.
    apply rg_set_ne. intros ->. tauto. }
  assert (D1 : rg s1 RDX = b) by apply rg_set.
  assert (IC : incl (c :: T0 :: T1 :: zs) (clob zs)).
  { intros r [<-|[<-|[<-|Hr]]]; cbn; auto. destruct Hc as [->|Hc]; auto. }
  destruct (muladd_ok M T0 T1 c HT HX0 HX1 C0 C1 CX (clob zs) zs ms s1) as (F2 & W2 & E2 & Cf & Co); auto.
  - eapply mops_frame; eauto.
  - eapply words_same; [exact Sc|exact Hw].
  - rewrite D1, (valr_same (setr s c 0) (setr s1 c 0) zs Sc). exact Ht.
  - assert (Es : s' = run (muladd M T0 T1 c zs) s1).
    { unfold s', addm. cbn [run step]. now rewrite (holds_rd _ _ _ _ Hb). }
    rewrite Es. rewrite D1, (valr_same (setr s c 0) (setr s1 c 0) zs Sc) in E2, Co. fold t in E2, Co.
    split; [|split; [|split; [|split]]]; auto.
    eapply frame_trans; [exact F1|]. eapply frame_incl; eauto.
Qed.

(** With the last register as C the number before is the one in the other registers. *)
Lemma clear_last ys z s : ~ In z ys -> valr (setr s z 0) (ys ++ [z]) = valr s ys /\
  (words s ys -> words (setr s z 0) (ys ++ [z])).
Proof.
  intros N. assert (S' : forall r, In r ys -> rg (setr s z 0) r = rg s r) by (intros r Hr; apply rg_set_ne; intros ->; tauto).
  split.
  - rewrite valr_app, (valr_same s _ ys S'). change (valr (setr s z 0) [z]) with (rg (setr s z 0) z + W * 0).
    rewrite rg_set. ring.
  - intros H. apply Forall_app. split; [eapply words_same; eauto|]. constructor; auto. rewrite rg_set. split; [lia|reflexivity].
Qed.

Definition rot (zs : list reg) : list reg := match zs with [] => [] | z :: r => r ++ [z] end.
Lemma rot_in zs r : In r (rot zs) <-> In r zs.
Proof. destruct zs as [|z zs]; cbn [rot]; [tauto|]. rewrite in_app_iff. cbn. tauto. Qed.
Lemma rot_length zs : length (rot zs) = length zs.
Proof. destruct zs; cbn [rot]; auto. rewrite app_length. cbn. lia. Qed.
Lemma rot_ok zs : regs_ok zs -> regs_ok (rot zs).
Proof.
  intros (ND & R). unfold regs_ok. rewrite !rot_in. split; auto.
  destruct zs as [|z zs]; auto. cbn [rot]. inversion ND; subst.
  apply (NoDup_Add (a := z) (l := zs)); [|auto]. rewrite <- (app_nil_r zs) at 1. apply Add_app.
Qed.
Lemma clob_rot zs : incl (clob (rot zs)) (clob zs) /\ incl (clob zs) (clob (rot zs)).
Proof. unfold clob. split; intros r; cbn [In]; rewrite rot_in; tauto. Qed.
Lemma removelast_rot z zs : removelast (rot (z :: zs)) = zs.
Proof. cbn [rot]. apply removelast_last. Qed.

(** ** A round, for one multiplier and for two *)
Section Round.
Variables (M1 : Z -> opnd) (ms : list Z).
Hypothesis Wms : Forall word ms.
Let a := valB W ms.
Definition round (bo : opnd) (zs : list reg) : list instr := addm bo M1 (last zs RAX) zs ++ red zs.

Lemma round_ok bo b zs s : length zs = (zw + S (length hs))%nat -> length zs = S (length ms) -> regs_ok zs ->
  holds (clob zs) s bo b -> mops (clob zs) s M1 0 ms -> word b ->
  words s (removelast zs) -> valr s (removelast zs) < a + p -> a + p <= LW ms ->
  let s' := run (round bo zs) s in
  frame (clob zs) s s' /\ words s' (tl zs) /\ 0 <= valr s' (tl zs) < a + p /\
  exists m, word m /\ W * valr s' (tl zs) = valr s (removelast zs) + b * a + m * p.
Proof.
  intros L Lm HR Hb HM Wb Hw HV Ha s'.
  assert (NE : zs <> []) by (destruct zs; [cbn in L; lia|discriminate]).
  set (z := last zs RAX) in *. set (ys := removelast zs) in *.
  assert (EZ : zs = ys ++ [z]) by (now apply app_removelast_last).
  assert (Nz : ~ In z ys). { destruct HR as (ND & _). rewrite EZ in ND. apply NoDup_remove_2 in ND. now rewrite app_nil_r in ND. }
  destruct (clear_last ys z s Nz) as [V0 W0]. rewrite <- EZ in V0, W0. specialize (W0 Hw).
  pose proof (valr_bound s ys Hw) as VB. pose proof W_2 as HW2.
  assert (A0 : 0 <= a). { unfold a. clear - Wms. induction Wms as [|x l H]; cbn [valB]; [lia|]. unfold word in H. pose proof W_pos. nia. }
  assert (LZ : LW zs = W * LW ms) by (rewrite Lm; apply pw_S).
  assert (B1 : valr s ys + b * a < W * (a + p)) by (unfold word in Wb; nia).
  assert (B2 : W * (a + p) <= LW zs) by (rewrite LZ; apply Z.mul_le_mono_nonneg_l; [discriminate|auto]).
  destruct (addm_ok bo M1 z zs b ms s) as (F1 & W1 & E1 & _ & _); auto.
  { rewrite L. lia. }
  { right. rewrite EZ. apply in_or_app. right. now left. }
  { rewrite V0. fold a. lia. }
  rewrite V0 in E1. fold a in E1. set (s1 := run (addm bo M1 z zs) s) in *.
  set (m := rg s1 (hd RAX zs)). assert (Wm : word m).
  { eapply words_in; [exact W1|]. destruct zs; [congruence|now left]. }
  assert (B3 : valr s1 zs + m * p < W * (a + p)) by (rewrite E1; unfold word in Wm, Wb; nia).
  destruct (red_ok zs s1) as (F2 & W2 & E2); auto.
  { fold m. lia. }
  fold m in E2.
  assert (Es : s' = run (red zs) s1) by (unfold s', round; now rewrite run_app). rewrite Es.
  split; [eapply frame_trans; eauto|]. split; [exact W2|]. split.
  - pose proof (valr_bound _ _ W2) as [V2 _]. split; auto. apply Z.mul_lt_mono_pos_l with W; [reflexivity|]. now rewrite E2.
  - exists m. split; auto. now rewrite E2, E1.
Qed.

Variable M0 : Z -> opnd.
Fixpoint rounds (k : Z) (n : nat) (zs : list reg) : list instr :=
  match n with O => [] | S n => round (M0 (8 * k)) zs ++ rounds (k + 1) n (rot zs) end.
Fixpoint rots (n : nat) (zs : list reg) : list reg := match n with O => zs | S n => rots n (rot zs) end.

Lemma rounds_ok C bs : forall k zs s, incl (clob zs) C ->
  length zs = (zw + S (length hs))%nat -> length zs = S (length ms) -> regs_ok zs ->
  mops C s M0 k bs -> mops C s M1 0 ms -> Forall word bs ->
  words s (removelast zs) -> valr s (removelast zs) < a + p -> a + p <= LW ms ->
  let s' := run (rounds k (length bs) zs) s in
  let rs := removelast (rots (length bs) zs) in
  frame C s s' /\ words s' rs /\ 0 <= valr s' rs < a + p /\
  exists m, 0 <= m < LW bs /\ LW bs * valr s' rs = valr s (removelast zs) + a * valB W bs + m * p.
Proof.
  induction bs as [|b bs IH]; intros k zs s IC L Lm HR HB HM Wb Hw HV Ha s' rs.
  - unfold s', rs. cbn [length rounds run rots valB]. change (W ^ Z.of_nat 0) with 1.
    pose proof (valr_bound _ _ Hw). repeat split; auto; try lia. exists 0. lia.
  - cbn [mops] in HB. destruct HB as [HB HB']. inversion_clear Wb as [|? ? Wb0 Wb']. 
    assert (H0 : holds (clob zs) s (M0 (8 * k)) b) by (intros s2 F; apply HB; eapply frame_incl; eauto).
    assert (HM' : mops (clob zs) s M1 0 ms).
    { clear - IC HM. revert HM. generalize 0. induction ms as [|x l IH]; intros j; cbn [mops]; auto.
      intros [H1 H2]. split; auto. intros s2 F. apply H1. eapply frame_incl; eauto. }
    destruct (round_ok (M0 (8 * k)) b zs s) as (F1 & W1 & V1 & m & Wm & E1); auto.
    set (s1 := run (round (M0 (8 * k)) zs) s) in *.
    assert (F1' : frame C s s1) by (eapply frame_incl; eauto).
    assert (RL : removelast (rot zs) = tl zs). { destruct zs; auto. apply removelast_rot. }
    destruct (IH (k + 1) (rot zs) s1) as (F2 & W2 & V2 & m2 & Wm2 & E2); auto.
    + eapply incl_tran; [exact (proj1 (clob_rot zs))|exact IC].
    + now rewrite rot_length.
    + now rewrite rot_length.
    + now apply rot_ok.
    + eapply mops_frame; eauto.
    + eapply mops_frame; eauto.
    + now rewrite RL.
    + rewrite RL. lia.
    + assert (Es : s' = run (rounds (k + 1) (length bs) (rot zs)) s1).
      { unfold s'. cbn [length rounds]. now rewrite run_app. }
      change (removelast (rots (length bs) (rot zs))) with rs in W2, V2, E2. rewrite <- Es in F2, W2, V2, E2.
      split; [eapply frame_trans; eauto|]. split; auto. split; auto. exists (m + W * m2). cbn [length]. rewrite pw_S. split.
      * unfold word in Wm. pose proof (pw_pos (length bs)). nia.
      * rewrite RL in E2. cbn [valB].
        transitivity (W * (W ^ Z.of_nat (length bs) * valr s' rs)); [ring|]. rewrite E2.
        transitivity (W * valr s1 (tl zs) + W * (a * valB W bs + m2 * p)); [ring|]. rewrite E1. ring.
Qed.

(** The whole multiplication: the registers hold a b0 at the start. *)
Definition mont (n : nat) (zs : list reg) : list instr := red zs ++ rounds 1 n (rot zs).
Lemma mont_ok C b bs zs s : incl (clob zs) C ->
  length zs = (zw + S (length hs))%nat -> length zs = S (length ms) -> regs_ok zs ->
  mops C s M0 1 bs -> mops C s M1 0 ms -> Forall word (b :: bs) ->
  words s zs -> valr s zs = b * a -> a + p <= LW ms ->
  let s' := run (mont (length bs) zs) s in
  let rs := removelast (rots (S (length bs)) zs) in
  frame C s s' /\ words s' rs /\ 0 <= valr s' rs < a + p /\
  exists m, 0 <= m < LW (b :: bs) /\ LW (b :: bs) * valr s' rs = a * valB W (b :: bs) + m * p.
Proof.
  intros IC L Lm HR HB HM Wb Hw HV Ha s' rs. inversion_clear Wb as [|? ? Wb0 Wb'].
  set (m := rg s (hd RAX zs)). assert (Wm : word m).
  { eapply words_in; [exact Hw|]. destruct zs; [cbn in L; lia|now left]. }
  pose proof W_2 as HW2.
  assert (A0 : 0 <= a). { unfold a. clear - Wms. induction Wms as [|x l H]; cbn [valB]; [lia|]. unfold word in H. pose proof W_pos. nia. }
  assert (LZ : LW zs = W * LW ms) by (rewrite Lm; apply pw_S).
  assert (B1 : valr s zs + m * p < W * (a + p)) by (rewrite HV; unfold word in Wm, Wb0; nia).
  assert (B2 : W * (a + p) <= LW zs) by (rewrite LZ; apply Z.mul_le_mono_nonneg_l; [discriminate|auto]).
  destruct (red_ok zs s) as (F1 & W1 & E1); auto. { fold m. lia. } fold m in E1. rewrite HV in E1.
  set (s1 := run (red zs) s) in *. assert (F1' : frame C s s1) by (eapply frame_incl; eauto).
  assert (RL : removelast (rot zs) = tl zs). { destruct zs; auto. apply removelast_rot. }
  destruct (rounds_ok C bs 1 (rot zs) s1) as (F2 & W2 & V2 & m2 & Wm2 & E2); auto.
  - eapply incl_tran; [exact (proj1 (clob_rot zs))|exact IC].
  - now rewrite rot_length.
  - now rewrite rot_length.
  - now apply rot_ok.
  - eapply mops_frame; eauto.
  - eapply mops_frame; eauto.
  - now rewrite RL.
  - rewrite RL. apply Z.mul_lt_mono_pos_l with W; [reflexivity|]. rewrite E1, <- HV. exact B1.
  - assert (Es : s' = run (rounds 1 (length bs) (rot zs)) s1) by (unfold s', mont; now rewrite run_app).
    change (removelast (rots (length bs) (rot zs))) with rs in W2, V2, E2. rewrite <- Es in F2, W2, V2, E2.
    split; [eapply frame_trans; eauto|]. split; auto. split; auto. exists (m + W * m2). cbn [length]. rewrite pw_S. split.
    + unfold word in Wm. pose proof (pw_pos (length bs)). nia.
    + rewrite RL in E2. cbn [valB].
      transitivity (W * (W ^ Z.of_nat (length bs) * valr s' rs)); [ring|]. rewrite E2.
      transitivity (W * valr s1 (tl zs) + W * (a * valB W bs + m2 * p)); [ring|]. rewrite E1. ring.
Qed.
End Round.
End Red.

(** ** The first row: mulx and adox only *)
Fixpoint mul_tl (d hi c : Z) (ms : list Z) : list Z :=
  match ms with
  | [] => [(hi + 0 + c) mod W]
  | m :: r => (hi + (d * m) mod W + c) mod W :: mul_tl d (d * m / W) ((hi + (d * m) mod W + c) / W) r
  end.
Definition mul_row (d : Z) (ms : list Z) : list Z :=
  match ms with [] => [] | m :: r => (d * m) mod W :: mul_tl d (d * m / W) 0 r end.
Lemma valB_nonneg l : Forall word l -> 0 <= valB W l < LW l.
Proof.
  induction 1 as [|x l H HF IH]; [cbn; lia|]. cbn [valB length]. rewrite pw_S. unfold word in H. pose proof W_pos. nia.
Qed.
Lemma mul_tl_ok d ms : word d -> Forall word ms -> forall hi c, word hi -> bit c ->
  hi + c + d * valB W ms < LW (0 :: ms) ->
  Forall word (mul_tl d hi c ms) /\ valB W (mul_tl d hi c ms) = hi + c + d * valB W ms.
Proof.
  intros Hd Hm. induction Hm as [|m ms Wm Wms IH]; intros hi c Hh Hc HB; cbn [mul_tl valB].
  - assert (X : (hi + 0 + c) mod W = hi + c).
    { cbn [valB length] in HB. change (W ^ Z.of_nat 1) with W in HB. unfold word, bit in *. rewrite Z.mod_small; lia. }
    rewrite X. cbn [valB length] in HB. change (W ^ Z.of_nat 1) with W in HB. unfold word, bit in *. split; [|ring].
    constructor; auto. lia.
  - destruct (mul_word d m Hd Wm) as (Wl & Wh & Ex). set (lo := (d * m) mod W) in *. set (h := d * m / W) in *.
    destruct (add_word hi lo c Hh Wl Hc) as (Wv & Bv & Ev). set (v := (hi + lo + c) mod W) in *.
    set (cv := (hi + lo + c) / W) in *. cbn [length] in HB, IH |- *. rewrite pw_S in HB. cbn [valB] in HB.
    assert (El : lo = d * m - W * h) by lia. assert (Ec : c = v + W * cv - hi - lo) by lia.
    destruct (IH h cv) as [W2 E2]; auto.
    + rewrite Ec, El in HB.
      replace (hi + (v + W * cv - hi - (d * m - W * h)) + d * (m + W * valB W ms)) with (v + W * (h + cv + d * valB W ms)) in HB by ring.
      assert (W * (h + cv + d * valB W ms) < W * W ^ Z.of_nat (S (length ms))) by (unfold word in Wv; lia).
      apply Z.mul_lt_mono_pos_l with W; [reflexivity|]. auto.
    + split; [constructor; auto|]. cbn [valB]. rewrite E2, Ec, El. ring.
Qed.
Lemma mul_row_ok d ms : word d -> ms <> [] -> Forall word ms ->
  Forall word (mul_row d ms) /\ valB W (mul_row d ms) = d * valB W ms.
Proof.
  intros Hd NE Hm. destruct ms as [|m ms]; [congruence|]. pose proof (valB_nonneg _ Hm) as BV. inversion_clear Hm as [|? ? Wm Wms].
  destruct (mul_word d m Hd Wm) as (Wl & Wh & Ex). cbn [mul_row valB] in *. cbn [length] in BV. rewrite pw_S in BV.
  destruct (mul_tl_ok d ms Hd Wms (d * m / W) 0) as [W2 E2]; auto. { split; lia. }
  - pose proof (pw_pos (length ms)) as PL. cbn [length]. rewrite pw_S.
    assert (W * (d * m / W + 0 + d * valB W ms) < W * (W * W ^ Z.of_nat (length ms))).
    { replace (W * (d * m / W + 0 + d * valB W ms)) with (d * (m + W * valB W ms) - (d * m) mod W) by lia.
      unfold word in Wl, Hd. nia. }
    apply Z.mul_lt_mono_pos_l with W; [reflexivity|]. auto.
  - split; [constructor; auto|]. rewrite E2. lia.
Qed.

(** ** Numbers in memory *)
Definition wat (m : Z -> Z) (x d : Z) (n : nat) : list Z := map (fun i => m (x + (d + 8 * Z.of_nat i))) (seq 0 n).
