(** Montgomery multiplication in registers as the macros of p503 do it, for any number of words: the flags are cleared before the
    first MULX, by a register that may be the one MULX overwrites, and every row ends with adc Zn, 0. *)
From Verif Require Import Base BaseP Asm AsmP AsmRedP.

Local Notation LW l := (W ^ Z.of_nat (length l)) (only parsing).

Section Mul.
Variables (M : Z -> opnd) (T0 T1 : reg).

(** MULADD64x512 and MULADD64x320 without the first and the last instruction. *)
Definition mrow0 (zs : list reg) : list instr :=
  match zs with
  | z0 :: ((z1 :: _) as r) => MULX T0 T1 (M (8 * 0)) :: ADOX z0 (Rg T1) :: ADOX z1 (Rg T0) :: row M T0 T1 1 r
  | _ => []
  end.
Definition muladd2 (c : reg) (zs : list reg) : list instr := XOR c c :: mrow0 zs ++ [ADC (last zs RAX) (Cn 0)].

Hypothesis HT : T0 <> T1.
Hypothesis HD0 : RDX <> T0.
Hypothesis HD1 : RDX <> T1.

Lemma mrow0_ok C zs ms s : cf s = 0 -> ovf s = 0 -> (2 <= length zs)%nat ->
  incl (T0 :: T1 :: zs) C -> NoDup zs -> ~ In T0 zs -> ~ In T1 zs -> ~ In RDX zs -> length zs = S (length ms) ->
  mops C s M 0 ms -> Forall word ms -> words s zs -> word (rg s RDX) ->
  let s' := run (mrow0 zs) s in
  frame (T0 :: T1 :: zs) s s' /\ words s' zs /\ bit (cf s') /\ bit (ovf s') /\
  valr s' zs + W ^ Z.of_nat (length ms) * (cf s' + W * ovf s') = valr s zs + rg s RDX * valB W ms.
Proof.
  intros F0 G0 L2 IC ND N0 N1 NX L HM Hm Hw Hd s'.
  destruct zs as [|z [|z' zs]]; [cbn in L2; lia..|]. destruct ms as [|m ms]; [discriminate|].
  cbn [mops] in HM. destruct HM as [Hm0 HM]. inversion_clear Hm as [|? ? Wm Wms].
  inversion Hw as [|? ? Wz Wr]; subst. inversion Wr as [|? ? Wz' Wr']; subst.
  inversion ND as [|? ? NI ND']; subst. inversion ND' as [|? ? NI' ND'']; subst.
  assert (Z0 : z <> T0) by (intros ->; apply N0; now left). assert (Z1 : z <> T1) by (intros ->; apply N1; now left).
  assert (Z0' : z' <> T0) by (intros ->; apply N0; right; now left).
  assert (Z1' : z' <> T1) by (intros ->; apply N1; right; now left).
  assert (ZZ : z <> z') by (intros ->; apply NI; now left).
  assert (ZX : RDX <> z) by (intros E; apply NX; rewrite E; now left).
  assert (ZX' : RDX <> z') by (intros E; apply NX; rewrite E; right; now left).
  set (d := rg s RDX) in *. set (x := d * m). destruct (mul_word d m Hd Wm) as (Wl & Wh & Ex).
  fold x in Wl, Wh, Ex. set (lo := x mod W) in *. set (hi := x / W) in *.
  assert (B0 : bit 0) by (split; lia).
  destruct (add_word (rg s z) lo 0 Wz Wl B0) as (Wv & Bv & Ev).
  set (v := (rg s z + lo + 0) mod W) in *. set (cv := (rg s z + lo + 0) / W) in *.
  destruct (add_word (rg s z') hi cv Wz' Wh Bv) as (Wu & Bu & Eu).
  set (u := (rg s z' + hi + cv) mod W) in *. set (cu := (rg s z' + hi + cv) / W) in *.
  set (s1 := step (ADOX z' (Rg T0)) (step (ADOX z (Rg T1)) (step (MULX T0 T1 (M (8 * 0))) s))).
  assert (E1 : s1 = flags (setr (flags (setr (setr (setr s T1 lo) T0 hi) z v) 0 cv) z' u) 0 cu).
  { unfold s1. cbn [step rd]. rewrite (holds_rd _ _ _ _ Hm0). fold d x lo hi.
    set (sa := setr (setr s T1 lo) T0 hi).
    assert (A0 : forall r, r <> T0 -> r <> T1 -> rg sa r = rg s r) by (intros r R0 R1; unfold sa; now rewrite !rg_set_ne by auto).
    assert (A1 : rg sa T1 = lo) by (unfold sa; now rewrite rg_set_ne, rg_set by auto).
    assert (A2 : rg sa T0 = hi) by (unfold sa; now rewrite rg_set by auto).
    change (cf sa) with (cf s). change (ovf sa) with (ovf s). rewrite F0, G0, A0, A1 by auto. fold v cv. cbn [rg flags cf ovf].
    rewrite !rg_set_ne by auto. rewrite A2, A0 by auto. reflexivity. }
  assert (R1 : forall r, r <> T0 -> r <> T1 -> r <> z -> r <> z' -> rg s1 r = rg s r).
  { intros r A1 A2 A3 A4. rewrite E1. cbn [rg flags]. rewrite !rg_set_ne by auto. cbn [rg flags]. now rewrite !rg_set_ne by auto. }
  assert (Rz : rg s1 z = v). { rewrite E1. cbn [rg flags]. rewrite rg_set_ne by auto. cbn [rg flags]. apply rg_set. }
  assert (Rz' : rg s1 z' = u). { rewrite E1. cbn [rg flags]. apply rg_set. }
  assert (F1 : frame (T0 :: T1 :: z :: z' :: zs) s s1).
  { rewrite E1. repeat split. intros r Hr. rewrite <- E1. apply R1; intros ->; apply Hr; cbn; tauto. }
  assert (Cf : cf s1 = 0) by now rewrite E1. assert (Co : ovf s1 = cu) by now rewrite E1.
  assert (Dr : rg s1 RDX = d). { now rewrite R1 by auto. }
  assert (Out : forall r, In r zs -> rg s1 r = rg s r).
  { intros r Hr. apply R1; intros ->; [apply N0; right; now right|apply N1; right; now right|apply NI; now right|tauto]. }
  destruct (row_ok M T0 T1 HT HD0 HD1 C) with (zs := z' :: zs) (ms := ms) (k := 1) (s := s1)
    as (F2 & W2 & B2 & O2 & E2); auto.
  - apply IC; cbn; tauto.
  - apply IC; cbn; tauto.
  - intros r Hr. apply IC. cbn in Hr |- *. tauto.
  - intros H. apply N0. now right.
  - intros H. apply N1. now right.
  - intros H. apply NX. now right.
  - change 1 with (0 + 1). eapply mops_frame; [|exact HM]. eapply frame_incl; eauto.
  - constructor; [now rewrite Rz'|]. eapply words_same; [exact Out|exact Wr'].
  - first [now rewrite Dr|rewrite Cf; split; lia|now rewrite Co].
  - first [now rewrite Dr|rewrite Cf; split; lia|now rewrite Co].
  - first [now rewrite Dr|rewrite Cf; split; lia|now rewrite Co].
  - assert (Es' : s' = run (row M T0 T1 1 (z' :: zs)) s1) by reflexivity. rewrite Es'. clear s' Es'.
    set (s' := run (row M T0 T1 1 (z' :: zs)) s1) in *.
    assert (Fz : rg s' z = v).
    { destruct F2 as (_ & _ & _ & R2). rewrite R2; auto. intros [H|[H|H]]; auto. }
    split; [|split; [|split; [|split]]]; auto.
    + eapply frame_trans; [exact F1|]. eapply frame_incl; [|exact F2]. intros r Hr. cbn in Hr |- *. tauto.
    + constructor; auto. now rewrite Fz.
    + rewrite valr_cons, Fz. rewrite (valr_cons s z), (valr_cons s z').
      rewrite (valr_cons s1), Rz' in E2. rewrite Cf, Co, Dr, (valr_same s s1 zs Out) in E2.
      cbn [valB length]. rewrite Nat2Z.inj_succ, Z.pow_succ_r by lia.
      set (Q := W ^ Z.of_nat (length ms)) in *. clearbody Q. set (V := valB W ms) in *. clearbody V.
      set (Y := valr s zs) in *. clearbody Y. set (X := valr s' (z' :: zs)) in *. clearbody X.
      assert (Ev' : v = rg s z + lo - W * cv) by lia.
      assert (Eu' : u = rg s z' + hi + cv - W * cu) by lia.
      assert (El : lo = d * m - W * hi) by (unfold x in Ex; lia).
      transitivity (v + W * (X + Q * (cf s' + W * ovf s'))); [ring|]. rewrite E2, Ev', Eu', El. ring.
Qed.

Lemma muladd2_ok C c zs ms s : c <> RDX -> (2 <= length zs)%nat ->
  incl (c :: T0 :: T1 :: zs) C -> NoDup zs -> ~ In T0 zs -> ~ In T1 zs -> ~ In RDX zs -> length zs = S (length ms) ->
  mops C s M 0 ms -> Forall word ms -> words (setr s c 0) zs -> word (rg s RDX) ->
  let t := valr (setr s c 0) zs + rg s RDX * valB W ms in
  t < W ^ Z.of_nat (length zs) ->
  let s' := run (muladd2 c zs) s in
  frame (c :: T0 :: T1 :: zs) s s' /\ words s' zs /\ valr s' zs = t.
Proof.
  intros CX L2 IC ND N0 N1 NX L HM Hm Hw Hd t Ht s'.
  assert (NE : zs <> []) by (destruct zs; [cbn in L2; lia|discriminate]).
  set (s0 := flags (setr s c 0) 0 0).
  assert (F0 : frame (c :: T0 :: T1 :: zs) s s0) by (apply frame_flags, frame_set; cbn; auto).
  assert (D0 : rg s0 RDX = rg s RDX) by (apply rg_set_ne; auto).
  destruct (mrow0_ok C zs ms s0) as (F1 & W1 & B1 & O1 & E1); auto.
  { intros r Hr. apply IC. now right. }
  { eapply mops_frame; [|exact HM]. eapply frame_incl; eauto. }
  { now rewrite D0. }
  rewrite D0 in E1. change (valr s0 zs) with (valr (setr s c 0) zs) in E1.
  fold t in E1. set (s1 := run (mrow0 zs) s0) in *. set (z := last zs RAX) in *.
  assert (Iz : In z zs). { destruct (last_split zs NE) as (ys & Ey). unfold z. rewrite Ey at 2. apply in_or_app. right. now left. }
  assert (Wz : word (rg s1 z)) by (eapply words_in; eauto).
  assert (B0 : word 0) by (split; [lia|reflexivity]).
  destruct (add_word (rg s1 z) 0 (cf s1) Wz B0 B1) as (Wv & Bv & Ev).
  set (v := (rg s1 z + 0 + cf s1) mod W) in *. set (cv := (rg s1 z + 0 + cf s1) / W) in *.
  set (o' := over (sgn (rg s1 z) + sgn 0 + cf s1)).
  assert (Es : s' = flags (setr s1 z v) cv o'). { unfold s', muladd2. cbn [run step]. rewrite Z.lxor_nilpotent. fold s0. rewrite run_app. reflexivity. }
  destruct (top_ok M zs s1 v cv o' (length ms)) as (F2 & W2 & E2); auto.
  { fold z. rewrite Ev. ring. } { apply Bv. }
  fold z in F2, W2, E2. rewrite <- Es in F2, W2, E2. pose proof (valr_bound s' zs W2) as VB. rewrite L in *.
  assert (Q0 : 0 < W ^ Z.of_nat (S (length ms))) by (apply Z.pow_pos_nonneg; [reflexivity|lia]).
  assert (QE : W ^ Z.of_nat (S (length ms)) = W * W ^ Z.of_nat (length ms)) by (rewrite Nat2Z.inj_succ, Z.pow_succ_r; lia).
  assert (NC' : valr s' zs + W ^ Z.of_nat (S (length ms)) * (cv + ovf s1) = t).
  { rewrite <- E1. transitivity (valr s' zs + W ^ Z.of_nat (S (length ms)) * cv + W ^ Z.of_nat (S (length ms)) * ovf s1); [ring|].
    rewrite E2, QE. ring. }
  destruct (no_carry M _ _ _ _ _ NC') as [C1 C2]; try lia; try apply Bv; try apply O1.
  assert (VT : valr s' zs = t).
  { rewrite C1, Z.mul_0_r, Z.add_0_r in E2. rewrite E2, <- E1, C2. ring. }
  split; [|split]; auto.
  eapply frame_trans; [exact F0|]. eapply frame_trans; [eapply frame_incl; [|exact F1]; intros r Hr; now right|].
  eapply frame_incl; [|exact F2]. intros r Hr. cbn. auto.
Qed.
End Mul.

Section Red.
Variables (Pm : Z -> opnd) (hs : list Z) (zw : nat) (p : Z) (T0 T1 : reg).
Hypothesis HT : T0 <> T1.
Hypothesis HX0 : RDX <> T0.
Hypothesis HX1 : RDX <> T1.
(** The words of (p+1)/2^(64 zw). *)
Hypothesis HP : forall C s, mops C s Pm 0 hs.
Hypothesis Hh : Forall word hs.
Hypothesis Hzw : (1 <= zw)%nat.
Hypothesis Hhs : hs <> [].
Hypothesis Hp1 : p + 1 = W ^ Z.of_nat zw * valB W hs.
Hypothesis Hp : 0 < p.

(** mov rdx, Z0; MULADD64x320 p1, Z3, ..., Z8 *)
Definition red2 (zs : list reg) : list instr :=
  MOV RDX (Rg (hd RAX zs)) :: muladd2 Pm T0 T1 T0 (skipn zw zs).
Definition regs_ok2 (zs : list reg) : Prop :=
  NoDup zs /\ ~ In T0 zs /\ ~ In T1 zs /\ ~ In RDX zs.
Definition clob2 (zs : list reg) : list reg := RDX :: T0 :: T1 :: zs.

Lemma red_ok2 zs s : length zs = (zw + S (length hs))%nat -> regs_ok2 zs -> words s zs ->
  valr s zs + rg s (hd RAX zs) * p < LW zs ->
  let s' := run (red2 zs) s in
  frame (clob2 zs) s s' /\ words s' (tl zs) /\ W * valr s' (tl zs) = valr s zs + rg s (hd RAX zs) * p.
Proof.
  intros L (ND & N0 & N1 & NX) Hw HB s'.
  destruct zs as [|z0 zs]; [cbn in L; lia|]. cbn [hd tl] in *.
  set (s1 := setr s RDX (rg s z0)).
  assert (Hs1 : forall r, In r (z0 :: zs) -> rg s1 r = rg s r).
  { intros r Hr. apply rg_set_ne. intros ->. tauto. }
  assert (W1 : words s1 (z0 :: zs)) by (eapply words_same; eauto).
  assert (W0 : word (rg s z0)) by (eapply words_in; [exact Hw|now left]).
  destruct zw as [|k] eqn:Ek; [lia|]. cbn [skipn] in *.
  set (A := firstn k zs). set (B := skipn k zs). assert (EZ : zs = A ++ B) by (symmetry; apply firstn_skipn).
  assert (LA : length A = k). { unfold A. rewrite firstn_length. cbn [length] in L. lia. }
  assert (LB : length B = S (length hs)). { unfold B. rewrite skipn_length. cbn [length] in L. lia. }
  assert (NB : NoDup B /\ forall x, In x A -> ~ In x B). { apply nodup_app. rewrite <- EZ. now inversion ND. }
  destruct NB as [NB NAB].
  assert (IB : forall r, In r B -> In r (z0 :: zs)) by (intros r Hr; right; rewrite EZ; apply in_or_app; now right).
  assert (IA : forall r, In r A -> In r (z0 :: zs)) by (intros r Hr; right; rewrite EZ; apply in_or_app; now left).
  assert (VS : valr s (z0 :: zs) = rg s z0 + W * (valr s A + W ^ Z.of_nat k * valr s B)).
  { rewrite valr_cons. rewrite EZ at 1. now rewrite valr_app, LA. }
  assert (D1 : rg s1 RDX = rg s z0) by apply rg_set.
  assert (WA : words s A). { unfold words. apply Forall_forall. intros r Hr. eapply words_in; eauto. }
  assert (WB : words s1 B). { unfold words. apply Forall_forall. intros r Hr. eapply words_in; eauto. }
  pose proof (valr_bound s A WA) as BA.
  assert (QE : LW (z0 :: zs) = W * (W ^ Z.of_nat k * LW B)).
  { cbn [length]. rewrite pw_S. f_equal. rewrite EZ, app_length, LA. apply pw_add. }
  assert (St : forall r, In r B -> rg (setr s1 T0 0) r = rg s1 r) by (intros r Hr; apply rg_set_ne; intros ->; apply N0; auto).
  destruct (muladd2_ok Pm T0 T1 HT HX0 HX1 (clob2 (z0 :: zs)) T0 B hs s1) as (F2 & W2 & E2).
  - auto.
  - rewrite LB. destruct hs; [congruence|]. cbn [length]. lia.
  - unfold clob2. intros r Hr. cbn [In] in Hr |- *. destruct Hr as [H|[H|[H|H]]]; auto. do 3 right. apply IB in H. exact H.
  - exact NB.
  - intros H. apply N0. auto.
  - intros H. apply N1. auto.
  - intros H. apply NX. auto.
  - exact LB.
  - apply HP.
  - exact Hh.
  - eapply words_same; [exact St|exact WB].
  - now rewrite D1.
  - rewrite D1, (valr_same s1 (setr s1 T0 0) B St), (valr_same s s1 B) by auto. rewrite QE, VS in HB.
    rewrite pw_S in Hp1. set (Q := W ^ Z.of_nat k) in *. set (X := LW B) in *.
    assert (HQ : 0 < Q) by apply pw_pos.
    assert (Y : W * (Q * (valr s B + rg s z0 * valB W hs)) < W * (Q * X)).
    { apply Z.le_lt_trans with (rg s z0 + W * (valr s A + Q * valr s B) + rg s z0 * p); auto.
      replace p with (W * Q * valB W hs - 1) by lia.
      replace (rg s z0 + W * (valr s A + Q * valr s B) + rg s z0 * (W * Q * valB W hs - 1))
        with (W * valr s A + W * (Q * (valr s B + rg s z0 * valB W hs))) by ring.
      assert (0 <= W * valr s A) by (apply Z.mul_nonneg_nonneg; [discriminate|lia]). lia. }
    apply Z.mul_lt_mono_pos_l in Y; [|reflexivity]. apply Z.mul_lt_mono_pos_l in Y; auto.
  - assert (Es : s' = run (muladd2 Pm T0 T1 T0 B) s1) by (unfold s', red2; rewrite Ek; reflexivity). rewrite Es. clear s' Es.
    set (s' := run (muladd2 Pm T0 T1 T0 B) s1) in *.
    assert (RA : forall r, In r A -> rg s' r = rg s r).
    { intros r Hr. destruct F2 as (_ & _ & _ & R2). rewrite R2; [now apply Hs1, IA|].
      pose proof (IA r Hr) as Hr'. intros [H|[H|[H|H]]]; [rewrite <- H in Hr'; tauto..|]. apply (NAB r); auto. }
    split; [|split].
    + eapply frame_trans; [apply (frame_set (clob2 (z0 :: zs)) s RDX (rg s z0)); cbn; auto|].
      eapply frame_incl; [|exact F2]. unfold clob2. intros r Hr. cbn [In] in Hr |- *.
      destruct Hr as [H|[H|[H|H]]]; auto. do 3 right. apply IB in H. exact H.
    + rewrite EZ. apply Forall_app. split; auto. eapply words_same; eauto.
    + rewrite EZ at 1. rewrite valr_app, LA, E2, D1, (valr_same s1 (setr s1 T0 0) B St), (valr_same s s' A RA), (valr_same s s1 B) by auto.
      rewrite VS. replace p with (W ^ Z.of_nat (S k) * valB W hs - 1) by lia. rewrite pw_S. ring.
Qed.

(** ** Adding a multiple *)
(** mov rdx, b; MULADD64xN a, ...: with the last register also as C, and with T0 as C. *)
Definition addm2 (bo : opnd) (M : Z -> opnd) (c : reg) (zs : list reg) : list instr :=
  MOV RDX bo :: muladd2 M T0 T1 c zs.

Lemma addm_ok2 bo M c zs b ms s : (2 <= length zs)%nat -> regs_ok2 zs -> c = T0 \/ In c zs -> length zs = S (length ms) ->
  holds (clob2 zs) s bo b -> mops (clob2 zs) s M 0 ms -> word b -> Forall word ms -> words (setr s c 0) zs ->
  let t := valr (setr s c 0) zs + b * valB W ms in
  t < LW zs ->
  let s' := run (addm2 bo M c zs) s in
  frame (clob2 zs) s s' /\ words s' zs /\ valr s' zs = t.
Proof.
  intros L2 (ND & N0 & N1 & NX) Hc L Hb HM Wb Wm Hw t Ht s'.
  set (s1 := setr s RDX b).
  assert (CX : c <> RDX). { destruct Hc as [->|Hc]; [auto|]. intros E. subst c. tauto. }
  assert (F1 : frame (clob2 zs) s s1) by (apply frame_set; cbn; auto).
  assert (Sc : forall r, In r zs -> rg (setr s1 c 0) r = rg (setr s c 0) r).
  { intros r Hr. destruct (reg_eq_dec r c) as [->|Nr]; [now rewrite !rg_set|]. rewrite !rg_set_ne by auto.
    apply rg_set_ne. intros ->. tauto. }
  assert (D1 : rg s1 RDX = b) by apply rg_set.
  assert (IC : incl (c :: T0 :: T1 :: zs) (clob2 zs)).
  { intros r [<-|[<-|[<-|Hr]]]; cbn; auto. destruct Hc as [->|Hc]; auto. }
  destruct (muladd2_ok M T0 T1 HT HX0 HX1 (clob2 zs) c zs ms s1) as (F2 & W2 & E2); auto.
  - eapply mops_frame; eauto.
  - eapply words_same; [exact Sc|exact Hw].
  - rewrite D1, (valr_same (setr s c 0) (setr s1 c 0) zs Sc). exact Ht.
  - assert (Es : s' = run (muladd2 M T0 T1 c zs) s1).
    { unfold s', addm2. cbn [run step]. now rewrite (holds_rd _ _ _ _ Hb). }
    rewrite Es. rewrite D1, (valr_same (setr s c 0) (setr s1 c 0) zs Sc) in E2. fold t in E2.
    split; [|split]; auto.
    eapply frame_trans; [exact F1|]. eapply frame_incl; eauto.
Qed.

Lemma rot_ok2 zs : regs_ok2 zs -> regs_ok2 (rot zs).
Proof.
  intros (ND & R). unfold regs_ok2. rewrite !rot_in. split; auto.
  destruct zs as [|z zs]; auto. cbn [rot]. inversion ND; subst.
  apply (NoDup_Add (a := z) (l := zs)); [|auto]. rewrite <- (app_nil_r zs) at 1. apply Add_app.
Qed.
Lemma clob_rot2 zs : incl (clob2 (rot zs)) (clob2 zs) /\ incl (clob2 zs) (clob2 (rot zs)).
Proof. unfold clob2. split; intros r; cbn [In]; rewrite rot_in; tauto. Qed.
(** ** A round2, for one multiplier and for two *)
Section Round.
Variables (M1 : Z -> opnd) (ms : list Z).
Hypothesis Wms : Forall word ms.
Let a := valB W ms.
Definition round2 (bo : opnd) (zs : list reg) : list instr := addm2 bo M1 (last zs RAX) zs ++ red2 zs.

Lemma round_ok2 bo b zs s : length zs = (zw + S (length hs))%nat -> length zs = S (length ms) -> regs_ok2 zs ->
  holds (clob2 zs) s bo b -> mops (clob2 zs) s M1 0 ms -> word b ->
  words s (removelast zs) -> valr s (removelast zs) < a + p -> a + p <= LW ms ->
  let s' := run (round2 bo zs) s in
  frame (clob2 zs) s s' /\ words s' (tl zs) /\ 0 <= valr s' (tl zs) < a + p /\
  exists m, word m /\ W * valr s' (tl zs) = valr s (removelast zs) + b * a + m * p.
Proof.
  intros L Lm HR Hb HM Wb Hw HV Ha s'.
  assert (NE : zs <> []) by (destruct zs; [cbn in L; lia|discriminate]).
  set (z := last zs RAX) in *. set (ys := removelast zs) in *.
  assert (EZ : zs = ys ++ [z]) by (now apply app_removelast_last).
  assert (Nz : ~ In z ys). { destruct HR as (ND & _). rewrite EZ in ND. apply NoDup_remove_2 in ND. now rewrite app_nil_r in ND. }
  destruct (clear_last Pm hs zw HP Hzw ys z s Nz) as [V0 W0]. rewrite <- EZ in V0, W0. specialize (W0 Hw).
  pose proof (valr_bound s ys Hw) as VB. pose proof W_2 as HW2.
  assert (A0 : 0 <= a). { unfold a. clear - Wms. induction Wms as [|x l H]; cbn [valB]; [lia|]. unfold word in H. pose proof W_pos. nia. }
  assert (LZ : LW zs = W * LW ms) by (rewrite Lm; apply pw_S).
  assert (B1 : valr s ys + b * a < W * (a + p)) by (unfold word in Wb; nia).
  assert (B2 : W * (a + p) <= LW zs) by (rewrite LZ; apply Z.mul_le_mono_nonneg_l; [discriminate|auto]).
  destruct (addm_ok2 bo M1 z zs b ms s) as (F1 & W1 & E1); auto.
  { rewrite L. lia. }
  { right. rewrite EZ. apply in_or_app. right. now left. }
  { rewrite V0. fold a. lia. }
  rewrite V0 in E1. fold a in E1. set (s1 := run (addm2 bo M1 z zs) s) in *.
  set (m := rg s1 (hd RAX zs)). assert (Wm : word m).
  { eapply words_in; [exact W1|]. destruct zs; [congruence|now left]. }
  assert (B3 : valr s1 zs + m * p < W * (a + p)) by (rewrite E1; unfold word in Wm, Wb; nia).
  destruct (red_ok2 zs s1) as (F2 & W2 & E2); auto.
  { fold m. lia. }
  fold m in E2.
  assert (Es : s' = run (red2 zs) s1) by (unfold s', round2; now rewrite run_app). rewrite Es.
  split; [eapply frame_trans; eauto|]. split; [exact W2|]. split.
  - pose proof (valr_bound _ _ W2) as [V2 _]. split; auto. apply Z.mul_lt_mono_pos_l with W; [reflexivity|]. now rewrite E2.
  - exists m. split; auto. now rewrite E2, E1.
Qed.

Variable M0 : Z -> opnd.
Fixpoint rounds2 (k : Z) (n : nat) (zs : list reg) : list instr :=
  match n with O => [] | S n => round2 (M0 (8 * k)) zs ++ rounds2 (k + 1) n (rot zs) end.

Lemma rounds_ok2 C bs : forall k zs s, incl (clob2 zs) C ->
  length zs = (zw + S (length hs))%nat -> length zs = S (length ms) -> regs_ok2 zs ->
  mops C s M0 k bs -> mops C s M1 0 ms -> Forall word bs ->
  words s (removelast zs) -> valr s (removelast zs) < a + p -> a + p <= LW ms ->
  let s' := run (rounds2 k (length bs) zs) s in
  let rs := removelast (rots (length bs) zs) in
  frame C s s' /\ words s' rs /\ 0 <= valr s' rs < a + p /\
  exists m, 0 <= m < LW bs /\ LW bs * valr s' rs = valr s (removelast zs) + a * valB W bs + m * p.
Proof.
  induction bs as [|b bs IH]; intros k zs s IC L Lm HR HB HM Wb Hw HV Ha s' rs.
  - unfold s', rs. cbn [length rounds2 run rots valB]. change (W ^ Z.of_nat 0) with 1.
    pose proof (valr_bound _ _ Hw). repeat split; auto; try lia. exists 0. lia.
  - cbn [mops] in HB. destruct HB as [HB HB']. inversion_clear Wb as [|? ? Wb0 Wb']. 
    assert (H0 : holds (clob2 zs) s (M0 (8 * k)) b) by (intros s2 F; apply HB; eapply frame_incl; eauto).
    assert (HM' : mops (clob2 zs) s M1 0 ms).
    { clear - IC HM. revert HM. generalize 0. induction ms as [|x l IH]; intros j; cbn [mops]; auto.
      intros [H1 H2]. split; auto. intros s2 F. apply H1. eapply frame_incl; eauto. }
    destruct (round_ok2 (M0 (8 * k)) b zs s) as (F1 & W1 & V1 & m & Wm & E1); auto.
    set (s1 := run (round2 (M0 (8 * k)) zs) s) in *.
    assert (F1' : frame C s s1) by (eapply frame_incl; eauto).
    assert (RL : removelast (rot zs) = tl zs). { destruct zs; auto. apply removelast_rot. }
    destruct (IH (k + 1) (rot zs) s1) as (F2 & W2 & V2 & m2 & Wm2 & E2); auto.
    + eapply incl_tran; [exact (proj1 (clob_rot2 zs))|exact IC].
    + now rewrite (rot_length Pm hs zw HP Hzw).
    + now rewrite (rot_length Pm hs zw HP Hzw).
    + now apply rot_ok2.
    + eapply mops_frame; eauto.
    + eapply mops_frame; eauto.
    + now rewrite RL.
    + rewrite RL. lia.
    + assert (Es : s' = run (rounds2 (k + 1) (length bs) (rot zs)) s1).
      { unfold s'. cbn [length rounds2]. now rewrite run_app. }
      change (removelast (rots (length bs) (rot zs))) with rs in W2, V2, E2. rewrite <- Es in F2, W2, V2, E2.
      split; [eapply frame_trans; eauto|]. split; auto. split; auto. exists (m + W * m2). cbn [length]. rewrite pw_S. split.
      * unfold word in Wm. pose proof (pw_pos (length bs)). nia.
      * rewrite RL in E2. cbn [valB].
        transitivity (W * (W ^ Z.of_nat (length bs) * valr s' rs)); [ring|]. rewrite E2.
        transitivity (W * valr s1 (tl zs) + W * (a * valB W bs + m2 * p)); [ring|]. rewrite E1. ring.
Qed.

(** The whole multiplication: the registers hold a b0 at the start. *)
Definition mont2 (n : nat) (zs : list reg) : list instr := red2 zs ++ rounds2 1 n (rot zs).
Lemma mont_ok2 C b bs zs s : incl (clob2 zs) C ->
  length zs = (zw + S (length hs))%nat -> length zs = S (length ms) -> regs_ok2 zs ->
  mops C s M0 1 bs -> mops C s M1 0 ms -> Forall word (b :: bs) ->
  words s zs -> valr s zs = b * a -> a + p <= LW ms ->
  let s' := run (mont2 (length bs) zs) s in
  let rs := removelast (rots (S (length bs)) zs) in
  frame C s s' /\ words s' rs /\ 0 <= valr s' rs < a + p /\
  exists m, 0 <= m < LW (b :: bs) /\ LW (b :: bs) * valr s' rs = a * valB W (b :: bs) + m * p.
Proof.
  intros IC L Lm HR HB HM Wb Hw HV Ha s' rs. inversion_clear Wb as [|? ? Wb0 Wb'].
  set (m := rg s (hd RAX zs)). assert (Wm : word m).
  { eapply words_in; [exact Hw|]. destruct zs; [cbn in L; lia|now left]. }
  pose proof W_2 as HW2.
  assert (A0 : 0 <= a). { unfold a. clear - Wms. induction Wms as [|x l H]; cbn [valB]; [lia|]. unfold word in H. pose proof W_pos. nia. }
  assert (LZ : LW zs = W * LW ms) by (rewrite Lm; apply pw_S).
  assert (B1 : valr s zs + m * p < W * (a + p)) by (rewrite HV; unfold word in Wm, Wb0; nia).
  assert (B2 : W * (a + p) <= LW zs) by (rewrite LZ; apply Z.mul_le_mono_nonneg_l; [discriminate|auto]).
  destruct (red_ok2 zs s) as (F1 & W1 & E1); auto. { fold m. lia. } fold m in E1. rewrite HV in E1.
  set (s1 := run (red2 zs) s) in *. assert (F1' : frame C s s1) by (eapply frame_incl; eauto).
  assert (RL : removelast (rot zs) = tl zs). { destruct zs; auto. apply removelast_rot. }
  destruct (rounds_ok2 C bs 1 (rot zs) s1) as (F2 & W2 & V2 & m2 & Wm2 & E2); auto.
  - eapply incl_tran; [exact (proj1 (clob_rot2 zs))|exact IC].
  - now rewrite (rot_length Pm hs zw HP Hzw).
  - now rewrite (rot_length Pm hs zw HP Hzw).
  - now apply rot_ok2.
  - eapply mops_frame; eauto.
  - eapply mops_frame; eauto.
  - now rewrite RL.
  - rewrite RL. apply Z.mul_lt_mono_pos_l with W; [reflexivity|]. rewrite E1, <- HV. exact B1.
  - assert (Es : s' = run (rounds2 1 (length bs) (rot zs)) s1) by (unfold s', mont2; now rewrite run_app).
    change (removelast (rots (length bs) (rot zs))) with rs in W2, V2, E2. rewrite <- Es in F2, W2, V2, E2.
    split; [eapply frame_trans; eauto|]. split; auto. split; auto. exists (m + W * m2). cbn [length]. rewrite pw_S. split.
    + unfold word in Wm. pose proof (pw_pos (length bs)). nia.
    + rewrite RL in E2. cbn [valB].
      transitivity (W * (W ^ Z.of_nat (length bs) * valr s' rs)); [ring|]. rewrite E2.
      transitivity (W * valr s1 (tl zs) + W * (a * valB W bs + m2 * p)); [ring|]. rewrite E1. ring.
Qed.
End Round.
End Red.
