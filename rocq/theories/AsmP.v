(** The blocks of the assembly code for any number of words: a row of multiplications added to registers with the two
    carry chains of ADCX and ADOX, and one step of the Montgomery reduction. *)
From Verif Require Import Base BaseP Asm.

Lemma W_pos : 0 < W. Proof. reflexivity. Qed.
Lemma W_2 : 2 <= W. Proof. discriminate. Qed.
Local Hint Resolve W_pos : core.

(** Reading and writing registers. *)
Lemma beq_refl r : reg_beq r r = true. Proof. now destruct r. Qed.
Lemma beq_ne r r' : r <> r' -> reg_beq r r' = false.
Proof. destruct (reg_beq r r') eqn:E; auto. apply internal_reg_dec_bl in E. tauto. Qed.
Lemma rg_set s r v : rg (setr s r v) r = v.
Proof. cbn [rg setr]. now rewrite beq_refl. Qed.
Lemma rg_set_ne s r v x : x <> r -> rg (setr s r v) x = rg s x.
Proof. intros H. cbn [rg setr]. now rewrite beq_ne. Qed.

Lemma run_app l1 l2 s : run (l1 ++ l2) s = run l2 (run l1 s).
Proof. revert s. induction l1; intros s; cbn [run app]; auto. Qed.

(** What a piece of code leaves alone: everything but the registers [l] and the flags. *)
Definition frame (l : list reg) (s s' : st) : Prop :=
  mem s' = mem s /\ stk s' = stk s /\ low s' = low s /\ forall r, ~ In r l -> rg s' r = rg s r.
Lemma frame_refl l s : frame l s s.
Proof. repeat split. Qed.
Lemma frame_trans l s1 s2 s3 : frame l s1 s2 -> frame l s2 s3 -> frame l s1 s3.
Proof.
  intros (M1 & K1 & L1 & R1) (M2 & K2 & L2 & R2). repeat split; [congruence..|].
  intros r H. rewrite R2, R1; auto.
Qed.
Lemma frame_incl l l' s s' : incl l l' -> frame l s s' -> frame l' s s'.
Proof. intros H (M & K & L & R). repeat split; auto. Qed.
Lemma frame_set l s r v : In r l -> frame l s (setr s r v).
Proof. intros H. repeat split. intros x Hx. apply rg_set_ne. intros ->. auto. Qed.
Lemma frame_flags l s s' c o : frame l s s' -> frame l s (flags s' c o).
Proof. auto. Qed.

(** An operand that keeps its value while the registers [l] change. *)
Definition holds (l : list reg) (s : st) (o : opnd) (v : Z) : Prop := forall s', frame l s s' -> rd s' o = v.
Lemma holds_rd l s o v : holds l s o v -> rd s o = v.
Proof. intros H. apply H, frame_refl. Qed.
Lemma holds_frame l s s' o v : frame l s s' -> holds l s o v -> holds l s' o v.
Proof. intros H1 H2 s2 H. apply H2. eapply frame_trans; eauto. Qed.
(** The words of a number in memory, read through a macro operand at displacement 8k. *)
Fixpoint mops (l : list reg) (s : st) (M : Z -> opnd) (k : Z) (ms : list Z) : Prop :=
  match ms with [] => True | m :: r => holds l s (M (8 * k)) m /\ mops l s M (k + 1) r end.
Lemma mops_frame l s s' M k ms : frame l s s' -> mops l s M k ms -> mops l s' M k ms.
Proof.
  intros F. revert k. induction ms as [|m r IH]; intros k; cbn [mops]; auto.
  intros [H1 H2]. split; auto. eapply holds_frame; eauto.
Qed.

Definition bit (x : Z) : Prop := 0 <= x <= 1.
Definition word (x : Z) : Prop := 0 <= x < W.
Lemma add_word x y c : word x -> word y -> bit c ->
  word ((x + y + c) mod W) /\ bit ((x + y + c) / W) /\ (x + y + c) mod W + W * ((x + y + c) / W) = x + y + c.
Proof.
  unfold word, bit. intros Hx Hy Hc. pose proof (Z.mod_pos_bound (x + y + c) W W_pos) as B.
  pose proof (Z.div_mod (x + y + c) W ltac:(discriminate)) as E. split; auto. split; [|lia].
  split; [apply Z.div_pos; lia|]. apply Z.lt_succ_r, Z.div_lt_upper_bound; lia.
Qed.
Lemma mul_word x y : word x -> word y ->
  word ((x * y) mod W) /\ word ((x * y) / W) /\ (x * y) mod W + W * ((x * y) / W) = x * y.
Proof.
  unfold word. intros Hx Hy. pose proof (Z.mod_pos_bound (x * y) W W_pos) as B.
  pose proof (Z.div_mod (x * y) W ltac:(discriminate)) as E. split; auto. split; [|lia].
  split; [apply Z.div_pos; nia|]. apply Z.div_lt_upper_bound; nia.
Qed.

(** The registers [zs] as one number. *)
Definition valr (s : st) (zs : list reg) : Z := valB W (map (rg s) zs).
Definition words (s : st) (zs : list reg) : Prop := Forall (fun r => word (rg s r)) zs.
Lemma valr_cons s z zs : valr s (z :: zs) = rg s z + W * valr s zs.
Proof. reflexivity. Qed.
Lemma valr_same s s' zs : (forall r, In r zs -> rg s' r = rg s r) -> valr s' zs = valr s zs.
Proof. intros H. unfold valr. f_equal. now apply map_ext_in. Qed.
Lemma words_same s s' zs : (forall r, In r zs -> rg s' r = rg s r) -> words s zs -> words s' zs.
Proof.
  unfold words. rewrite !Forall_forall. intros H1 H2 r Hr. rewrite H1; auto.
Qed.
Lemma words_in s zs r : words s zs -> In r zs -> word (rg s r).
Proof. unfold words. rewrite Forall_forall. auto. Qed.
Lemma valr_bound s zs : words s zs -> 0 <= valr s zs < W ^ Z.of_nat (length zs).
Proof.
  intros H. induction H as [|z zs Hz Hs IH]; [cbn; lia|]. rewrite valr_cons. cbn [length].
  rewrite Nat2Z.inj_succ, Z.pow_succ_r by lia. unfold word in Hz. nia.
Qed.
Lemma frame_out l s s' zs : frame l s s' -> (forall r, In r zs -> ~ In r l) -> forall r, In r zs -> rg s' r = rg s r.
Proof. intros (_ & _ & _ & R) H r Hr. apply R. auto. Qed.

Section Row.
Variables (M : Z -> opnd) (T0 T1 : reg).

(** The repeated part of MULADD64xN: mulx T0, T1, 8k[M]; adcx Zk, T1; adox Zk+1, T0. *)
Fixpoint row (k : Z) (zs : list reg) : list instr :=
  match zs with
  | z :: ((z' :: _) as r) => MULX T0 T1 (M (8 * k)) :: ADCX z (Rg T1) :: ADOX z' (Rg T0) :: row (k + 1) r
  | _ => []
  end.

Hypothesis HT : T0 <> T1.
Hypothesis HD0 : RDX <> T0.
Hypothesis HD1 : RDX <> T1.

Lemma row_ok C : In T0 C -> In T1 C -> forall zs ms k s,
  incl zs C -> NoDup zs -> ~ In T0 zs -> ~ In T1 zs -> ~ In RDX zs -> length zs = S (length ms) ->
  mops C s M k ms -> Forall word ms -> words s zs -> word (rg s RDX) -> bit (cf s) -> bit (ovf s) ->
  let s' := run (row k zs) s in
  frame (T0 :: T1 :: zs) s s' /\ words s' zs /\ bit (cf s') /\ bit (ovf s') /\
  valr s' zs + W ^ Z.of_nat (length ms) * (cf s' + W * ovf s') = valr s zs + cf s + W * ovf s + rg s RDX * valB W ms.
Proof.
  intros C0 C1. induction zs as [|z [|z' zs] IH]; intros ms k s IC ND N0 N1 NX L HM Hm Hw Hd Hc Ho s'.
  - discriminate.
  - destruct ms as [|m ms]; [|discriminate]. unfold s'. cbn [run row length valB]. change (W ^ Z.of_nat 0) with 1.
    repeat split; auto; try apply Hc; try apply Ho. ring.
  - destruct ms as [|m ms]; [discriminate|]. cbn [mops] in HM. destruct HM as [Hm0 HM].
    inversion_clear Hm as [|? ? Wm Wms]. inversion Hw as [|? ? Wz Wr]; subst. inversion Wr as [|? ? Wz' Wr']; subst.
    inversion ND as [|? ? NI ND']; subst.
    assert (Z0 : z <> T0) by (intros ->; apply N0; now left). assert (Z1 : z <> T1) by (intros ->; apply N1; now left).
    assert (Z0' : z' <> T0) by (intros ->; apply N0; right; now left).
    assert (Z1' : z' <> T1) by (intros ->; apply N1; right; now left).
    assert (ZZ : z <> z') by (intros ->; apply NI; now left).
    assert (ZX : RDX <> z) by (intros E; apply NX; rewrite E; now left). assert (ZX' : RDX <> z') by (intros E; apply NX; rewrite E; right; now left).
    set (d := rg s RDX) in *. set (x := d * m). destruct (mul_word d m Hd Wm) as (Wl & Wh & Ex).
    fold x in Wl, Wh, Ex. set (lo := x mod W) in *. set (hi := x / W) in *.
    destruct (add_word (rg s z) lo (cf s) Wz Wl Hc) as (Wv & Bv & Ev).
    set (v := (rg s z + lo + cf s) mod W) in *. set (cv := (rg s z + lo + cf s) / W) in *.
    destruct (add_word (rg s z') hi (ovf s) Wz' Wh Ho) as (Wu & Bu & Eu).
    set (u := (rg s z' + hi + ovf s) mod W) in *. set (cu := (rg s z' + hi + ovf s) / W) in *.
    set (s1 := step (ADOX z' (Rg T0)) (step (ADCX z (Rg T1)) (step (MULX T0 T1 (M (8 * k))) s))).
    assert (E1 : s1 = flags (setr (flags (setr (setr (setr s T1 lo) T0 hi) z v) cv (ovf s)) z' u) cv cu).
    { unfold s1. cbn [step rd]. rewrite (holds_rd _ _ _ _ Hm0). fold d x lo hi.
      cbn [rg cf ovf flags]. rewrite !rg_set_ne, rg_set by auto. rewrite !rg_set_ne by auto. rewrite rg_set.
      reflexivity. }
    assert (R1 : forall r, r <> T0 -> r <> T1 -> r <> z -> r <> z' -> rg s1 r = rg s r).
    { intros r A1 A2 A3 A4. rewrite E1. cbn [rg flags]. rewrite !rg_set_ne by auto. cbn [rg flags]. now rewrite !rg_set_ne by auto. }
    assert (Rz : rg s1 z = v). { rewrite E1. cbn [rg flags]. rewrite rg_set_ne by auto. cbn [rg flags]. apply rg_set. }
    assert (Rz' : rg s1 z' = u). { rewrite E1. cbn [rg flags]. apply rg_set. }
    assert (F1 : frame (T0 :: T1 :: z :: z' :: zs) s s1).
    { rewrite E1. repeat split. intros r Hr. rewrite <- E1. apply R1; intros ->; apply Hr; cbn; auto. }
    assert (Cf : cf s1 = cv) by now rewrite E1. assert (Co : ovf s1 = cu) by now rewrite E1.
    assert (IC' : incl (T0 :: T1 :: z :: z' :: zs) C). { intros r [<-|[<-|Hr]]; auto. }
    destruct (IH ms (k + 1) s1) as (F2 & W2 & B2 & O2 & E2); auto.
    + intros r Hr. apply IC. now right.
    + intros H. apply N0. now right.
    + intros H. apply N1. now right.
    + intros H. apply NX. now right.
    + eapply mops_frame; [|exact HM]. eapply frame_incl; eauto.
    + constructor; [now rewrite Rz'|]. eapply words_same; [|exact Wr'].
      intros r Hr. inversion ND' as [|? ? NI' _]; subst. apply R1; intros ->.
      * apply N0. right. now right. * apply N1. right. now right. * apply NI. now right. * tauto.
    + rewrite R1; auto.
    + now rewrite Cf.
    + now rewrite Co.
    + assert (Es' : s' = run (row (k + 1) (z' :: zs)) s1) by reflexivity. rewrite Es'. clear s' Es'.
      set (s' := run (row (k + 1) (z' :: zs)) s1) in *.
      assert (Fz : rg s' z = v).
      { destruct F2 as (_ & _ & _ & R2). rewrite R2; auto. intros [H|[H|H]]; auto. }
      split; [|split; [|split; [|split]]]; auto.
      * eapply frame_trans; [exact F1|]. eapply frame_incl; [|exact F2]. intros r [<-|[<-|Hr]]; cbn; auto.
      * constructor; auto. now rewrite Fz.
      * rewrite valr_cons, Fz. rewrite (valr_cons s z), (valr_cons s z').
        rewrite (valr_cons s1), Rz' in E2. rewrite Cf, Co in E2.
        rewrite (valr_same s s1 zs) in E2.
        2: { intros r Hr. inversion ND' as [|? ? NI' _]; subst. apply R1; intros ->.
             - apply N0. right. now right. - apply N1. right. now right. - apply NI. now right. - tauto. }
        rewrite R1 in E2 by auto. fold d in E2. cbn [valB length]. rewrite Nat2Z.inj_succ, Z.pow_succ_r by lia.
        set (Q := W ^ Z.of_nat (length ms)) in *. clearbody Q. set (V := valB W ms) in *. clearbody V.
        set (Y := valr s zs) in *. clearbody Y.
        set (X := valr s' (z' :: zs)) in *. clearbody X.
        assert (Ev' : v = rg s z + lo + cf s - W * cv) by lia.
        assert (Eu' : u = rg s z' + hi + ovf s - W * cu) by lia.
        assert (El : lo = d * m - W * hi) by (unfold x in Ex; lia).
        transitivity (v + W * (X + Q * (cf s' + W * ovf s'))); [ring|]. rewrite E2, Ev', Eu', El. ring.
Qed.

End Row.

Lemma valr_app s l1 l2 : valr s (l1 ++ l2) = valr s l1 + W ^ Z.of_nat (length l1) * valr s l2.
Proof.
  induction l1 as [|z l IH]; cbn [app length]; [change (W ^ Z.of_nat 0) with 1; change (valr s []) with 0; ring|].
  rewrite !valr_cons, IH, Nat2Z.inj_succ, Z.pow_succ_r by lia. ring.
Qed.

Section Mul.
Variables (M : Z -> opnd) (T0 T1 c : reg).

(** MULADD64xN without its last instruction. *)
Definition mrow (zs : list reg) : list instr :=
  match zs with
  | z0 :: ((z1 :: _) as r) => MULX T0 T1 (M (8 * 0)) :: XOR c c :: ADOX z0 (Rg T1) :: ADOX z1 (Rg T0) :: row M T0 T1 1 r
  | _ => []
  end.
(** MULADD64x448, MULADD64x512: ends with adc Zn, 0. *)
Definition muladd (zs : list reg) : list instr := mrow zs ++ [ADC (last zs RAX) (Cn 0)].
(** MULADD64x256, MULADD64x320: ends with adcx Zn, rax. *)
Definition redadd (zs : list reg) : list instr := mrow zs ++ [ADCX (last zs RAX) (Rg c)].

Hypothesis HT : T0 <> T1.
Hypothesis HD0 : RDX <> T0.
Hypothesis HD1 : RDX <> T1.
Hypothesis Hc0 : c <> T0.
Hypothesis Hc1 : c <> T1.
Hypothesis Hcx : RDX <> c.

Lemma mrow_ok C zs ms s : (2 <= length zs)%nat ->
  incl (c :: T0 :: T1 :: zs) C -> NoDup zs -> ~ In T0 zs -> ~ In T1 zs -> ~ In RDX zs -> length zs = S (length ms) ->
  mops C s M 0 ms -> Forall word ms -> words (setr s c 0) zs -> word (rg s RDX) ->
  let s' := run (mrow zs) s in
  frame (c :: T0 :: T1 :: zs) s s' /\ words s' zs /\ bit (cf s') /\ bit (ovf s') /\ (~ In c zs -> rg s' c = 0) /\
  valr s' zs + W ^ Z.of_nat (length ms) * (cf s' + W * ovf s') = valr (setr s c 0) zs + rg s RDX * valB W ms.
Proof.
  intros L2 IC ND N0 N1 NX L HM Hm Hw Hd s'.
  destruct zs as [|z [|z' zs]]; [cbn in L2; lia..|]. destruct ms as [|m ms]; [discriminate|].
  cbn [mops] in HM. destruct HM as [Hm0 HM]. inversion_clear Hm as [|? ? Wm Wms].
  inversion Hw as [|? ? Wz Wr]; subst. inversion Wr as [|? ? Wz' Wr']; subst.
  inversion ND as [|? ? NI ND']; subst. inversion ND' as [|? ? NI' ND'']; subst.
  assert (Z0 : z <> T0) by (intros ->; apply N0; now left). assert (Z1 : z <> T1) by (intros ->; apply N1; now left).
  assert (Z0' : z' <> T0) by (intros ->; apply N0; right; now left).
  assert (Z1' : z' <> T1) by (intros ->; apply N1; right; now left).
  assert (ZZ : z <> z') by (intros ->; apply NI; now left).
  assert (ZX : RDX <> z) by (intros E; apply NX; rewrite E; now left).
  assert (ZX' : RDX <> z') by (intros E; apply NX; rewrite E; right; now left).
  set (d := rg s RDX) in *. set (x := d * m). destruct (mul_word d m Hd Wm) as (Wl & Wh & Ex).
  fold x in Wl, Wh, Ex. set (lo := x mod W) in *. set (hi := x / W) in *.
  set (sc := setr s c 0) in *.
  assert (B0 : bit 0) by (split; lia).
  destruct (add_word (rg sc z) lo 0 Wz Wl B0) as (Wv & Bv & Ev).
  set (v := (rg sc z + lo + 0) mod W) in *. set (cv := (rg sc z + lo + 0) / W) in *.
  destruct (add_word (rg sc z') hi cv Wz' Wh Bv) as (Wu & Bu & Eu).
  set (u := (rg sc z' + hi + cv) mod W) in *. set (cu := (rg sc z' + hi + cv) / W) in *.
  set (s1 := step (ADOX z' (Rg T0)) (step (ADOX z (Rg T1)) (step (XOR c c) (step (MULX T0 T1 (M (8 * 0))) s)))).
  assert (E1 : s1 = flags (setr (flags (setr (flags (setr (setr (setr s T1 lo) T0 hi) c 0) 0 0) z v) 0 cv) z' u) 0 cu).
  { unfold s1. cbn [step rd]. rewrite (holds_rd _ _ _ _ Hm0). fold d x lo hi. rewrite Z.lxor_nilpotent.
    set (sa := flags (setr (setr (setr s T1 lo) T0 hi) c 0) 0 0).
    assert (A0 : forall r, r <> T0 -> r <> T1 -> rg sa r = rg sc r).
    { intros r R0 R1. unfold sa, sc. cbn [rg flags]. destruct (reg_eq_dec r c) as [->|Rc].
      - now rewrite !rg_set. - now rewrite !rg_set_ne by auto. }
    assert (A1 : rg sa T1 = lo) by (unfold sa; cbn [rg flags]; now rewrite !rg_set_ne, rg_set by auto).
    assert (A2 : rg sa T0 = hi) by (unfold sa; cbn [rg flags]; now rewrite rg_set_ne, rg_set by auto).
    change (cf sa) with 0. change (ovf sa) with 0. rewrite A0, A1 by auto. fold v cv. cbn [rg flags cf ovf].
    rewrite !rg_set_ne by auto. fold sa. rewrite A2, A0 by auto. reflexivity. }
  assert (R1 : forall r, r <> T0 -> r <> T1 -> r <> z -> r <> z' -> rg s1 r = rg sc r).
  { intros r A1 A2 A3 A4. rewrite E1. cbn [rg flags]. rewrite !rg_set_ne by auto. cbn [rg flags]. rewrite !rg_set_ne by auto.
    unfold sc. cbn [rg flags]. destruct (reg_eq_dec r c) as [->|Rc]; [now rewrite !rg_set|now rewrite !rg_set_ne by auto]. }
  assert (Rz : rg s1 z = v). { rewrite E1. cbn [rg flags]. rewrite rg_set_ne by auto. cbn [rg flags]. apply rg_set. }
  assert (Rz' : rg s1 z' = u). { rewrite E1. cbn [rg flags]. apply rg_set. }
  assert (F1 : frame (c :: T0 :: T1 :: z :: z' :: zs) s s1).
  { rewrite E1. repeat split. intros r Hr. rewrite <- E1. rewrite R1; [|intros ->; apply Hr; cbn; tauto..].
    unfold sc. apply rg_set_ne. intros ->. apply Hr. cbn; tauto. }
  assert (Cf : cf s1 = 0) by now rewrite E1. assert (Co : ovf s1 = cu) by now rewrite E1.
  assert (Dr : rg s1 RDX = d). { rewrite R1 by auto. unfold sc. now rewrite rg_set_ne by auto. }
  assert (Out : forall r, In r zs -> rg s1 r = rg sc r).
  { intros r Hr. apply R1; intros ->; [apply N0; right; now right|apply N1; right; now right|apply NI; now right|tauto]. }
  destruct (row_ok M T0 T1 HT HD0 HD1 C) with (zs := z' :: zs) (ms := ms) (k := 1) (s := s1)
    as (F2 & W2 & B2 & O2 & E2); auto.
  - apply IC; cbn; tauto.
  - apply IC; cbn; tauto.
  - intros r Hr. apply IC. cbn in Hr |- *. tauto.
  - intros H. apply N0. now right.
  - intros H. apply N1. now right.
  - intros H. apply NX. now right.
  - change 1 with (0 + 1). eapply mops_frame; [|exact HM]. eapply frame_incl; eauto.
  - constructor; [now rewrite Rz'|]. eapply words_same; [exact Out|exact Wr'].
  - first [now rewrite Dr|now rewrite Cf|now rewrite Co].
  - first [now rewrite Dr|now rewrite Cf|now rewrite Co].
  - assert (Es' : s' = run (row M T0 T1 1 (z' :: zs)) s1) by reflexivity. rewrite Es'. clear s' Es'.
    set (s' := run (row M T0 T1 1 (z' :: zs)) s1) in *.
    assert (Fz : rg s' z = v).
    { destruct F2 as (_ & _ & _ & R2). rewrite R2; auto. intros [H|[H|H]]; auto. }
    split; [|split; [|split; [|split; [|split]]]]; auto.
    + eapply frame_trans; [exact F1|]. eapply frame_incl; [|exact F2]. intros r Hr. cbn in Hr |- *. tauto.
    + constructor; auto. now rewrite Fz.
    + intros Nc. destruct F2 as (_ & _ & _ & R2). rewrite R2.
      * rewrite R1; [apply rg_set| | | |]; auto; intros ->; apply Nc; cbn; tauto.
      * intros [H|[H|H]]; auto. apply Nc. now right.
    + rewrite valr_cons, Fz. rewrite (valr_cons sc z), (valr_cons sc z').
      rewrite (valr_cons s1), Rz' in E2. rewrite Cf, Co, Dr, (valr_same sc s1 zs Out) in E2.
      cbn [valB length]. rewrite Nat2Z.inj_succ, Z.pow_succ_r by lia.
      set (Q := W ^ Z.of_nat (length ms)) in *. clearbody Q. set (V := valB W ms) in *. clearbody V.
      set (Y := valr sc zs) in *. clearbody Y. set (X := valr s' (z' :: zs)) in *. clearbody X.
      assert (Ev' : v = rg sc z + lo - W * cv) by lia.
      assert (Eu' : u = rg sc z' + hi + cv - W * cu) by lia.
      assert (El : lo = d * m - W * hi) by (unfold x in Ex; lia).
      transitivity (v + W * (X + Q * (cf s' + W * ovf s'))); [ring|]. rewrite E2, Ev', Eu', El. ring.
Qed.

Lemma sgn_small x : 0 <= x < 2 ^ 63 -> sgn x = x.
Proof. intros H. unfold sgn. destruct (Z.ltb_spec x (2 ^ 63)); lia. Qed.

(** The last word is at most the number divided by its weight. *)
Lemma last_split (zs : list reg) : zs <> [] -> exists ys, zs = ys ++ [last zs RAX].
Proof. intros H. exists (removelast zs). now apply app_removelast_last. Qed.

Lemma top_ok zs s v c' o' (k : nat) : zs <> [] -> NoDup zs -> length zs = S k -> words s zs -> bit (cf s) ->
  v + W * c' = rg s (last zs RAX) + cf s -> word v -> 0 <= c' ->
  let s' := flags (setr s (last zs RAX) v) c' o' in
  frame zs s s' /\ words s' zs /\
  valr s' zs + W ^ Z.of_nat (S k) * c' = valr s zs + W ^ Z.of_nat k * cf s.
Proof.
  intros NE ND L Hw Hc E Wv Hc' s'. destruct (last_split zs NE) as (ys & Ey). set (z := last zs RAX) in *.
  clearbody z. subst zs. rewrite app_length in L. cbn [length] in L. assert (Lk : length ys = k) by lia.
  assert (Nz : ~ In z ys). { rewrite NoDup_app_iff in ND || (apply NoDup_remove_2 in ND; rewrite app_nil_r in ND). tauto. }
  assert (R : forall r, In r ys -> rg s' r = rg s r).
  { intros r Hr. unfold s'. cbn [rg flags]. apply rg_set_ne. intros ->. tauto. }
  assert (Rz : rg s' z = v) by (unfold s'; cbn [rg flags]; apply rg_set).
  apply Forall_app in Hw as [Hw1 Hw2]. split; [|split].
  - unfold s'. apply frame_flags, frame_set. apply in_or_app. right. now left.
  - apply Forall_app. split; [eapply words_same; eauto|]. constructor; auto. now rewrite Rz.
  - rewrite !valr_app, (valr_same s s' ys R), Lk. change (valr s' [z]) with (rg s' z + W * 0).
    change (valr s [z]) with (rg s z + W * 0). rewrite Rz, Nat2Z.inj_succ, Z.pow_succ_r by lia.
    replace v with (rg s z + cf s - W * c') by lia. ring.
Qed.

(** A sum that fits leaves no carry. *)
Lemma no_carry V Q c1 c2 T : V + Q * (c1 + c2) = T -> 0 <= V -> 0 < Q -> 0 <= c1 -> 0 <= c2 -> T < Q -> c1 = 0 /\ c2 = 0.
Proof.
  intros E HV HQ H1 H2 HT'. assert (c1 + c2 = 0); [|lia]. destruct (Z.eq_dec (c1 + c2) 0); auto.
  assert (Q * 1 <= Q * (c1 + c2)) by (apply Z.mul_le_mono_nonneg_l; lia). lia.
Qed.

Lemma muladd_ok C zs ms s : (2 <= length zs)%nat ->
  incl (c :: T0 :: T1 :: zs) C -> NoDup zs -> ~ In T0 zs -> ~ In T1 zs -> ~ In RDX zs -> length zs = S (length ms) ->
  mops C s M 0 ms -> Forall word ms -> words (setr s c 0) zs -> word (rg s RDX) ->
  let t := valr (setr s c 0) zs + rg s RDX * valB W ms in
  t < W ^ Z.of_nat (length zs) ->
  let s' := run (muladd zs) s in
  frame (c :: T0 :: T1 :: zs) s s' /\ words s' zs /\ valr s' zs = t /\ cf s' = 0 /\
  (2 * t < W ^ Z.of_nat (length zs) -> ovf s' = 0).
Proof.
  intros L2 IC ND N0 N1 NX L HM Hm Hw Hd t Ht s'.
  assert (NE : zs <> []) by (destruct zs; [cbn in L2; lia|discriminate]).
  destruct (mrow_ok C zs ms s) as (F1 & W1 & B1 & O1 & _ & E1); auto.
  fold t in E1. set (s1 := run (mrow zs) s) in *. set (z := last zs RAX) in *.
  assert (Iz : In z zs). { destruct (last_split zs NE) as (ys & Ey). unfold z. rewrite Ey at 2. apply in_or_app. right. now left. }
  assert (Wz : word (rg s1 z)) by (eapply words_in; eauto).
  assert (B0 : word 0) by (split; [lia|reflexivity]).
  destruct (add_word (rg s1 z) 0 (cf s1) Wz B0 B1) as (Wv & Bv & Ev).
  set (v := (rg s1 z + 0 + cf s1) mod W) in *. set (cv := (rg s1 z + 0 + cf s1) / W) in *.
  set (o' := over (sgn (rg s1 z) + sgn 0 + cf s1)).
  assert (Es : s' = flags (setr s1 z v) cv o'). { unfold s', muladd. rewrite run_app. reflexivity. }
  destruct (top_ok zs s1 v cv o' (length ms)) as (F2 & W2 & E2); auto.
  { fold z. rewrite Ev. ring. } { apply Bv. }
  fold z in F2, W2, E2. rewrite <- Es in F2, W2, E2. pose proof (valr_bound s' zs W2) as VB. rewrite L in *.
  assert (Q0 : 0 < W ^ Z.of_nat (S (length ms))) by (apply Z.pow_pos_nonneg; [reflexivity|lia]).
  assert (QE : W ^ Z.of_nat (S (length ms)) = W * W ^ Z.of_nat (length ms)) by (rewrite Nat2Z.inj_succ, Z.pow_succ_r; lia).
  assert (NC' : valr s' zs + W ^ Z.of_nat (S (length ms)) * (cv + ovf s1) = t).
  { rewrite <- E1. transitivity (valr s' zs + W ^ Z.of_nat (S (length ms)) * cv + W ^ Z.of_nat (S (length ms)) * ovf s1); [ring|].
    rewrite E2, QE. ring. }
  destruct (no_carry _ _ _ _ _ NC') as [C1 C2]; try lia; try apply Bv; try apply O1.
  assert (VT : valr s' zs = t).
  { rewrite C1, Z.mul_0_r, Z.add_0_r in E2. rewrite E2, <- E1, C2. ring. }
  split; [|split; [|split; [|split]]]; auto.
  - eapply frame_trans; [exact F1|]. eapply frame_incl; [|exact F2]. intros r Hr. cbn. auto.
  - now rewrite Es.
  - intros H2. rewrite Es. cbn [ovf flags]. unfold o'.
    assert (Rz : rg s' z = v). { rewrite Es. cbn [rg flags]. apply rg_set. }
    assert (Hv : v < 2 ^ 63).
    { destruct (last_split zs NE) as (ys & Ey). fold z in Ey. rewrite <- VT, Ey, valr_app in H2.
      change (valr s' [z]) with (rg s' z + W * 0) in H2. rewrite Rz in H2.
      assert (Ly : length ys = length ms). { rewrite Ey, app_length in L. cbn in L. lia. }
      rewrite Ly in H2. assert (Wy : words s' ys). { rewrite Ey in W2. now apply Forall_app in W2 as [? _]. }
      pose proof (valr_bound s' ys Wy) as VY. rewrite QE in H2.
      set (Q := W ^ Z.of_nat (length ms)) in *. assert (0 < Q) by (apply Z.pow_pos_nonneg; [reflexivity|lia]).
      assert (X : Q * (2 * v) < Q * W) by lia. apply Z.mul_lt_mono_pos_l in X; [|lia].
      change W with (2 * 2 ^ 63) in X. lia. }
    destruct Wv as [Wv _]. destruct B1 as [B1 _]. destruct Wz as [Wz _].
    assert (Sz : rg s1 z + cf s1 = v) by (rewrite C1 in Ev; lia).
    rewrite (sgn_small (rg s1 z)) by lia. change (sgn 0) with 0. rewrite Z.add_0_r, Sz. unfold over.
    destruct (Z.leb_spec (- 2 ^ 63) v), (Z.ltb_spec v (2 ^ 63)); auto; lia.
Qed.

Lemma redadd_ok C zs ms s : (2 <= length zs)%nat -> ~ In c zs ->
  incl (c :: T0 :: T1 :: zs) C -> NoDup zs -> ~ In T0 zs -> ~ In T1 zs -> ~ In RDX zs -> length zs = S (length ms) ->
  mops C s M 0 ms -> Forall word ms -> words s zs -> word (rg s RDX) ->
  let t := valr s zs + rg s RDX * valB W ms in
  t < W ^ Z.of_nat (length zs) ->
  let s' := run (redadd zs) s in
  frame (c :: T0 :: T1 :: zs) s s' /\ words s' zs /\ valr s' zs = t.
Proof.
  intros L2 NC IC ND N0 N1 NX L HM Hm Hw Hd t Ht s'.
  assert (NE : zs <> []) by (destruct zs; [cbn in L2; lia|discriminate]).
  assert (Sc : forall r, In r zs -> rg (setr s c 0) r = rg s r) by (intros r Hr; apply rg_set_ne; intros ->; tauto).
  destruct (mrow_ok C zs ms s) as (F1 & W1 & B1 & O1 & C0 & E1); auto.
  { eapply words_same; eauto. }
  rewrite (valr_same s (setr s c 0) zs Sc) in E1.
  fold t in E1. set (s1 := run (mrow zs) s) in *. set (z := last zs RAX) in *.
  assert (Iz : In z zs). { destruct (last_split zs NE) as (ys & Ey). unfold z. rewrite Ey at 2. apply in_or_app. right. now left. }
  assert (Wz : word (rg s1 z)) by (eapply words_in; eauto).
  assert (B0 : word 0) by (split; [lia|reflexivity]).
  destruct (add_word (rg s1 z) 0 (cf s1) Wz B0 B1) as (Wv & Bv & Ev).
  set (v := (rg s1 z + 0 + cf s1) mod W) in *. set (cv := (rg s1 z + 0 + cf s1) / W) in *.
  assert (Es : s' = flags (setr s1 z v) cv (ovf s1)).
  { unfold s', redadd. rewrite run_app. cbn [run step rd]. fold s1 z. rewrite C0 by auto. reflexivity. }
  destruct (top_ok zs s1 v cv (ovf s1) (length ms)) as (F2 & W2 & E2); auto.
  { fold z. rewrite Ev. ring. } { apply Bv. }
  fold z in F2, W2, E2. rewrite <- Es in F2, W2, E2. pose proof (valr_bound s' zs W2) as VB. rewrite L in *.
  assert (Q0 : 0 < W ^ Z.of_nat (S (length ms))) by (apply Z.pow_pos_nonneg; [reflexivity|lia]).
  assert (QE : W ^ Z.of_nat (S (length ms)) = W * W ^ Z.of_nat (length ms)) by (rewrite Nat2Z.inj_succ, Z.pow_succ_r; lia).
  assert (NC' : valr s' zs + W ^ Z.of_nat (S (length ms)) * (cv + ovf s1) = t).
  { rewrite <- E1. transitivity (valr s' zs + W ^ Z.of_nat (S (length ms)) * cv + W ^ Z.of_nat (S (length ms)) * ovf s1); [ring|].
    rewrite E2, QE. ring. }
  destruct (no_carry _ _ _ _ _ NC') as [C1 C2]; try lia; try apply Bv; try apply O1.
  assert (VT : valr s' zs = t).
  { rewrite C1, Z.mul_0_r, Z.add_0_r in E2. rewrite E2, <- E1, C2. ring. }
  split; [|split]; auto.
  eapply frame_trans; [exact F1|]. eapply frame_incl; [|exact F2]. intros r Hr. cbn. auto.
Qed.
End Mul.
