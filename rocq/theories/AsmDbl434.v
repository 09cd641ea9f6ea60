(** fp2mul434_c0_asm and fp2mul434_c1_asm. *)
From Verif Require Import Base BaseP Params Wf Digits DigitsP Fp FpP Asm AsmP434 AsmP AsmRedP AsmDblP AsmMul434 AsmAdd434
  AsmFp434 AsmSqr434.

Local Notation P := (P434 T64).

(** ** FPDBLMUL448x448: the rounds, then the last step of the reduction, written by hand *)
Definition dbl_tail : list instr :=
  skipn (length fp2mul434_c1_asm - 27) fp2mul434_c1_asm.
Lemma FPDBL_split M00 M01 M10 M11 :
  FPDBLMUL448x448 M00 M01 M10 M11 R8 R9 R10 R11 R12 R13 R14 R15 RBX RBP ++
  [STO (Mm RCX 40) R12; STO (Mm RCX 48) R13; POP R13; POP R12] =
  dmont (mT (w_pp1 P) 24) 3 RBX RBP M00 M01 M10 M11 5 zreg ++ dbl_tail.
Proof. reflexivity. Qed.

(** mulx, adox, adcx with m on the words z1..z5, from the flags c and o. *)
Definition red_tl (m h3 h4 h5 h6 z1 z2 z3 z4 z5 c o : Z) : list Z :=
  let a1 := z1 + (m * h3) mod W + o in
  let a2 := z2 + m * h3 / W + a1 / W in
  let b2 := a2 mod W + (m * h4) mod W + c in
  let a3 := z3 + m * h4 / W + a2 / W in
  let b3 := a3 mod W + (m * h5) mod W + b2 / W in
  let a4 := z4 + m * h5 / W + a3 / W in
  let b4 := a4 mod W + (m * h6) mod W + b3 / W in
  let a5 := z5 + m * h6 / W + a4 / W in
  let b5 := a5 mod W + 0 + b4 / W in
  [a1 mod W; b2 mod W; b3 mod W; b4 mod W; b5 mod W].
Lemma red_tl_eq (w m h3 h4 h5 h6 z1 z2 z3 z4 z5 l3 l4 l5 l6 u3 u4 u5 u6 v1 v2 v3 v4 v5 x2 x3 x4 x5 o1 o2 o3 o4 o5 c2 c3 c4 c5 : Z) :
  v1 + w * o1 = z1 + l3 -> x2 + w * o2 = z2 + u3 + o1 -> v2 + w * c2 = x2 + l4 ->
  x3 + w * o3 = z3 + u4 + o2 -> v3 + w * c3 = x3 + l5 + c2 -> x4 + w * o4 = z4 + u5 + o3 -> v4 + w * c4 = x4 + l6 + c3 ->
  x5 + w * o5 = z5 + u6 + o4 -> v5 + w * c5 = x5 + c4 ->
  l3 + w * u3 = m * h3 -> l4 + w * u4 = m * h4 -> l5 + w * u5 = m * h5 -> l6 + w * u6 = m * h6 ->
  v1 + w * (v2 + w * (v3 + w * (v4 + w * (v5 + w * 0)))) + w * (w * (w * (w * w))) * (o5 + c5) =
  z1 + w * (z2 + w * (z3 + w * (z4 + w * (z5 + w * 0)))) + m * (h3 + w * (h4 + w * (h5 + w * (h6 + w * 0)))).
Proof.
  intros. assert (z1 = v1 + w * o1 - l3) by lia. assert (z2 = x2 + w * o2 - u3 - o1) by lia.
  assert (x2 = v2 + w * c2 - l4) by lia. assert (z3 = x3 + w * o3 - u4 - o2) by lia.
  assert (x3 = v3 + w * c3 - l5 - c2) by lia. assert (z4 = x4 + w * o4 - u5 - o3) by lia.
  assert (x4 = v4 + w * c4 - l6 - c3) by lia. assert (z5 = x5 + w * o5 - u6 - o4) by lia.
  assert (x5 = v5 + w * c5 - c4) by lia. assert (l3 = m * h3 - w * u3) by lia. assert (l4 = m * h4 - w * u4) by lia.
  assert (l5 = m * h5 - w * u5) by lia. assert (l6 = m * h6 - w * u6) by lia. subst. ring.
Qed.
Lemma no_top V Q x y T : V + Q * (x + y) = T -> 0 <= V < Q -> 0 <= x -> 0 <= y -> T < Q -> V = T.
Proof.
  intros E HV Hx Hy H. assert (x + y = 0) as X; [|rewrite X in E; lia].
  destruct (Z.eq_dec (x + y) 0); auto. exfalso.
  assert (Q * 1 <= Q * (x + y)) by (apply Z.mul_le_mono_nonneg_l; lia). lia.
Qed.
Lemma red_tl_ok m h3 h4 h5 h6 z1 z2 z3 z4 z5 : word m -> Forall word [h3; h4; h5; h6] -> Forall word [z1; z2; z3; z4; z5] ->
  let t := valB W [z1; z2; z3; z4; z5] + m * valB W [h3; h4; h5; h6] in
  t < W ^ 5 ->
  let r := red_tl m h3 h4 h5 h6 z1 z2 z3 z4 z5 0 0 in Forall word r /\ valB W r = t.
Proof.
  intros Wm Wh Wz t Ht r. assert (B0 : bit 0) by (split; lia). assert (W0 : word 0) by (split; [lia|reflexivity]).
  inversion_clear Wh as [|? ? H3 Wh']. inversion_clear Wh' as [|? ? H4 Wh]. inversion_clear Wh as [|? ? H5 Wh'].
  inversion_clear Wh' as [|? ? H6 _].
  inversion_clear Wz as [|? ? Z1 Wz']. inversion_clear Wz' as [|? ? Z2 Wz]. inversion_clear Wz as [|? ? Z3 Wz'].
  inversion_clear Wz' as [|? ? Z4 Wz]. inversion_clear Wz as [|? ? Z5 _].
  destruct (mul_word m h3 Wm H3) as (L3 & U3 & E3). destruct (mul_word m h4 Wm H4) as (L4 & U4 & E4).
  destruct (mul_word m h5 Wm H5) as (L5 & U5 & E5). destruct (mul_word m h6 Wm H6) as (L6 & U6 & E6).
  unfold r, red_tl. clear r.
  set (l3 := (m * h3) mod W) in *. set (u3 := m * h3 / W) in *. set (l4 := (m * h4) mod W) in *. set (u4 := m * h4 / W) in *.
  set (l5 := (m * h5) mod W) in *. set (u5 := m * h5 / W) in *. set (l6 := (m * h6) mod W) in *. set (u6 := m * h6 / W) in *.
  destruct (add_word z1 l3 0 Z1 L3 B0) as (A1 & C1 & F1). set (a1 := z1 + l3 + 0) in *.
  destruct (add_word z2 u3 (a1 / W) Z2 U3 C1) as (A2 & C2 & F2). set (a2 := z2 + u3 + a1 / W) in *.
  destruct (add_word (a2 mod W) l4 0 A2 L4 B0) as (B2 & D2 & G2). set (b2 := a2 mod W + l4 + 0) in *.
  destruct (add_word z3 u4 (a2 / W) Z3 U4 C2) as (A3 & C3 & F3). set (a3 := z3 + u4 + a2 / W) in *.
  destruct (add_word (a3 mod W) l5 (b2 / W) A3 L5 D2) as (B3 & D3 & G3). set (b3 := a3 mod W + l5 + b2 / W) in *.
  destruct (add_word z4 u5 (a3 / W) Z4 U5 C3) as (A4 & C4 & F4). set (a4 := z4 + u5 + a3 / W) in *.
  destruct (add_word (a4 mod W) l6 (b3 / W) A4 L6 D3) as (B4 & D4 & G4). set (b4 := a4 mod W + l6 + b3 / W) in *.
  destruct (add_word z5 u6 (a4 / W) Z5 U6 C4) as (A5 & C5 & F5). set (a5 := z5 + u6 + a4 / W) in *.
  destruct (add_word (a5 mod W) 0 (b4 / W) A5 W0 D4) as (B5 & D5 & G5). set (b5 := a5 mod W + 0 + b4 / W) in *.
  assert (Wr : Forall word [a1 mod W; b2 mod W; b3 mod W; b4 mod W; b5 mod W]) by (repeat (apply Forall_cons; [assumption|]); apply Forall_nil).
  split; auto.
  assert (E : valB W [a1 mod W; b2 mod W; b3 mod W; b4 mod W; b5 mod W] + W ^ 5 * (a5 / W + b5 / W) = t).
  { unfold t. cbn [valB]. change (W ^ 5) with (W * (W * (W * (W * W)))).
    eapply red_tl_eq; [etransitivity; [exact F1|exact (Z.add_0_r (z1 + l3))]|exact F2|
      etransitivity; [exact G2|exact (Z.add_0_r (a2 mod W + l4))]|exact F3|exact G3|exact F4|exact G4|exact F5|
      etransitivity; [exact G5|unfold b5; now rewrite Z.add_0_r]|eassumption..]. }
  pose proof (valB_nonneg _ Wr) as VB. change (Z.of_nat (length [a1 mod W; b2 mod W; b3 mod W; b4 mod W; b5 mod W])) with 5 in VB.
  destruct C5 as [C5 _], D5 as [D5 _]. exact (no_top _ _ _ _ _ E VB C5 D5 Ht).
Qed.
Definition drs : list reg := [R14; R15; R8; R9; R10; R11; R12; R13].
Definition dbl_res (s : st) : list Z :=
  [rg s R15; rg s R8] ++ red_tl (rg s R14) (nth 0 hi434 0) (nth 1 hi434 0) (nth 2 hi434 0) (nth 3 hi434 0)
    (rg s R9) (rg s R10) (rg s R11) (rg s R12) (rg s R13) (cf s) (ovf s).
Lemma dbl_tail_mem s y : mem (run dbl_tail s) y = put (rg s RCX) 0 (dbl_res s) (mem s) y.
Proof. reflexivity. Qed.
Lemma dbl_tail_saved s v0 v1 v2 v3 v4 v5 r : stk s = v0 :: v1 :: v2 :: v3 :: v4 :: v5 :: r ->
  stk (run dbl_tail s) = r /\ map (rg (run dbl_tail s)) [RBP; RBX; R15; R14; R13; R12] = [v0; v1; v2; v3; v4; v5].
Proof. intros H. cbn -[Z.add Z.sub Z.mul Z.div Z.modulo W over sgn Z.eqb]. rewrite H. split; reflexivity. Qed.

(** r is a b + c d reduced. *)
Definition dmul_post (a b c d r : list Z) : Prop :=
  Forall word r /\ length r = 7%nat /\ 0 <= valB W r < valB W a + valB W c + p434 /\
  exists m, 0 <= m < W ^ 7 /\ W ^ 7 * valB W r = valB W a * valB W b + valB W c * valB W d + m * p434.

Lemma dbl_res_ok s N : words s drs -> cf s = 0 -> ovf s = 0 -> N <= W ^ 7 ->
  valr s drs < W * N - (W - 1) * p434 ->
  Forall word (dbl_res s) /\ length (dbl_res s) = 7%nat /\ 0 <= valB W (dbl_res s) < N /\
  exists m, word m /\ W * valB W (dbl_res s) = valr s drs + m * p434.
Proof.
  intros Hw Hc Ho HN HB. set (m := rg s R14). assert (Wm : word m) by (eapply words_in; [exact Hw|now left]).
  assert (Wz : Forall word [rg s R9; rg s R10; rg s R11; rg s R12; rg s R13]).
  { repeat (apply Forall_cons; [eapply words_in; [exact Hw|cbn; tauto]|]). apply Forall_nil. }
  assert (W15 : word (rg s R15)) by (eapply words_in; [exact Hw|cbn; tauto]).
  assert (W8 : word (rg s R8)) by (eapply words_in; [exact Hw|cbn; tauto]).
  set (h := valB W [nth 0 hi434 0; nth 1 hi434 0; nth 2 hi434 0; nth 3 hi434 0]).
  assert (Hp1 : p434 + 1 = W ^ 3 * h) by reflexivity.
  set (z := valB W [rg s R9; rg s R10; rg s R11; rg s R12; rg s R13]).
  assert (EV : valr s drs = m + W * (rg s R15 + W * (rg s R8 + W * z))) by reflexivity.
  assert (EQ : valr s drs + m * p434 = W * (rg s R15 + W * (rg s R8 + W * (z + m * h)))).
  { rewrite EV. replace p434 with (W ^ 3 * h - 1) by lia. change (W ^ 3) with (W * (W * W)). ring. }
  assert (Mp : m * p434 <= (W - 1) * p434).
  { apply Z.mul_le_mono_nonneg_r; [discriminate|]. unfold word in Wm. lia. }
  assert (TN : W * (rg s R15 + W * (rg s R8 + W * (z + m * h))) < W * N) by (rewrite <- EQ; lia).
  apply Z.mul_lt_mono_pos_l in TN; [|reflexivity].
  assert (T5 : z + m * h < W ^ 5).
  { apply Z.mul_lt_mono_pos_l with (W * W); [reflexivity|]. change (W ^ 7) with (W * W * W ^ 5) in HN.
    unfold word in W15, W8. assert (0 <= W * rg s R8) by (apply Z.mul_nonneg_nonneg; [discriminate|lia]). lia. }
  destruct (red_tl_ok m (nth 0 hi434 0) (nth 1 hi434 0) (nth 2 hi434 0) (nth 3 hi434 0)
    (rg s R9) (rg s R10) (rg s R11) (rg s R12) (rg s R13)) as (Wr & Vr); auto.
  { exact hi434_word. }
  unfold dbl_res. rewrite Hc, Ho. fold m z h in Vr |- *.
  assert (VE : valB W ([rg s R15; rg s R8] ++ red_tl m (nth 0 hi434 0) (nth 1 hi434 0) (nth 2 hi434 0) (nth 3 hi434 0)
    (rg s R9) (rg s R10) (rg s R11) (rg s R12) (rg s R13) 0 0) = rg s R15 + W * (rg s R8 + W * (z + m * h))).
  { rewrite <- Vr. reflexivity. }
  rewrite VE. split; [|split; [|split]].
  - apply Forall_app. split; auto.
  - reflexivity.
  - split; auto. rewrite <- VE. apply valB_nonneg. apply Forall_app. split; auto.
  - exists m. split; auto.
Qed.

Definition dbl_code (M00 M01 M10 M11 : Z -> opnd) : list instr :=
  FPDBLMUL448x448 M00 M01 M10 M11 R8 R9 R10 R11 R12 R13 R14 R15 RBX RBP ++
  [STO (Mm RCX 40) R12; STO (Mm RCX 48) R13; POP R13; POP R12].
Lemma dbl_run M00 M01 M10 M11 s : run (dbl_code M00 M01 M10 M11) s =
  run dbl_tail (run (dmont (mT (w_pp1 P) 24) 3 RBX RBP M00 M01 M10 M11 5 zreg) s).
Proof. unfold dbl_code. now rewrite FPDBL_split, run_app. Qed.
Lemma seven {A} (l : list A) : length l = 7%nat -> exists x y z, l = x :: y ++ [z] /\ length y = 5%nat.
Proof.
  intros H. do 8 (destruct l as [|? l]; [try discriminate|]); [|discriminate].
  eexists _, [_; _; _; _; _], _. split; reflexivity.
Qed.

Lemma digit_bound m m' A B : 0 < A -> 0 <= m < A -> 0 <= m' < B -> 0 <= m + A * m' < A * B.
Proof. intros. nia. Qed.
Lemma dbl_ok M00 M01 M10 M11 a b c d s : let C := clob RBX RBP zreg in
  length a = 7%nat -> length b = 7%nat -> length c = 7%nat -> length d = 7%nat ->
  mops C s M00 0 a -> mops C s M01 0 c -> mops C s M10 0 b -> mops C s M11 0 d ->
  Forall word a -> Forall word b -> Forall word c -> Forall word d ->
  words s zreg -> valr s zreg = nth 0 b 0 * valB W a -> 2 * (valB W a + valB W c + p434) <= W ^ 7 ->
  let s' := run (dbl_code M00 M01 M10 M11) s in
  (forall v0 v1 v2 v3 v4 v5 r, stk s = v0 :: v1 :: v2 :: v3 :: v4 :: v5 :: r ->
     stk s' = r /\ map (rg s') [RBP; RBX; R15; R14; R13; R12] = [v0; v1; v2; v3; v4; v5]) /\
  exists r, dmul_post a b c d r /\ forall y, mem s' y = put (rg s RCX) 0 r (mem s) y.
Proof.
  intros C La Lb Lc Ld Ha Hc Hb Hd Wa Wb Wc Wd Hw HV HN. cbv zeta. rewrite dbl_run.
  destruct (seven b Lb) as (b0 & bs & be & -> & Lbs). destruct (seven d Ld) as (d0 & ds & de & -> & Lds).
  pose proof (dmont_ok (mT (w_pp1 P) 24) hi434 3 p434 RBX RBP ltac:(discriminate) ltac:(discriminate) ltac:(discriminate)
    ltac:(discriminate) ltac:(discriminate) hi434_ops hi434_word ltac:(lia) ltac:(discriminate) p434_1 p434_pos
    M00 M01 a c Wa Wc ltac:(congruence) M10 M11 C b0 bs be d0 ds de zreg s) as K.
  cbv zeta in K. rewrite Lbs, La in K.
  assert (RR : rots 6 zreg = drs) by reflexivity. rewrite RR in K. clear RR.
  generalize dependent (run (dmont (mT (w_pp1 P) 24) 3 RBX RBP M00 M01 M10 M11 5 zreg) s). intros s1 K.
  destruct K as (F & W1 & V1 & C1 & O1 & m & Hm & E); auto.
  { apply incl_refl. }
  { split; [nodup|]. repeat split; notin. }
  cbn [length] in Hm, E. rewrite Lbs in Hm, E. change (Z.of_nat 6) with 6 in Hm, E.
  destruct F as (M1 & K1 & _ & R1).
  assert (P0 := p434_pos). pose proof (valB_nonneg a Wa). pose proof (valB_nonneg c Wc).
  destruct (dbl_res_ok s1 (valB W a + valB W c + p434)) as (Wr & Lr & Vr & m' & Wm' & Er); auto; try lia.
  split.
  - intros v0 v1 v2 v3 v4 v5 r Hs. apply dbl_tail_saved. congruence.
  - exists (dbl_res s1). split.
    + split; auto. split; auto. split; auto. exists (m + W ^ 6 * m'). split.
      * unfold word in Wm'. change (W ^ 7) with (W ^ 6 * W). assert (0 < W ^ 6) by reflexivity.
        apply (digit_bound m m' (W ^ 6) W); auto.
      * change (W ^ 7) with (W ^ 6 * W). rewrite <- Z.mul_assoc, Er, Z.mul_add_distr_l, E. ring.
    + intros y. rewrite dbl_tail_mem, M1, R1 by notin. reflexivity.
Qed.
(** ** fp2mul434_c1_asm, lines 484-517 *)
Definition c1_pro : list instr := firstn 23 fp2mul434_c1_asm.
Lemma c1_run s : run fp2mul434_c1_asm s =
  run (dbl_code (mB RDI 56) (mB RDI 0) (mB RSI 0) (mB RSI 56)) (run c1_pro s).
Proof.
  assert (E : fp2mul434_c1_asm = c1_pro ++ dbl_code (mB RDI 56) (mB RDI 0) (mB RSI 0) (mB RSI 56)) by reflexivity.
  now rewrite E, run_app.
Qed.
Lemma c1_pro_regs s : map (rg (run c1_pro s)) zreg = mul_row (mem s (rg s RSI + 0)) (wat (mem s) (rg s RDI) 56 7).
Proof.
  unfold c1_pro, fp2mul434_c1_asm. cbn [firstn app]. sim_cbn. rewrite !Z.lxor_nilpotent. reflexivity.
Qed.
Lemma c1_pro_ok s : let s1 := run c1_pro s in
  mem s1 = mem s /\ rg s1 RDI = rg s RDI /\ rg s1 RSI = rg s RSI /\ rg s1 RCX = rg s RDX /\
  stk s1 = rg s RBP :: rg s RBX :: rg s R15 :: rg s R14 :: rg s R13 :: rg s R12 :: stk s.
Proof. repeat split; reflexivity. Qed.

Lemma dbl_end s s' x r : length r = 7%nat ->
  (forall y, mem s' y = put x 0 r (mem s) y) -> only_at x 7 (mem s) (mem s') /\ wat (mem s') x 0 7 = r.
Proof.
  intros L M. split.
  - intros y Hy. rewrite M, put_only; auto. intros i Hi. rewrite L in Hi. specialize (Hy i). lia.
  - transitivity (wat (put x 0 r (mem s)) x 0 7); [apply wat_ext; intros y _; apply M|]. rewrite <- L. apply put_wat.
Qed.
Lemma saved_regs s s' : stk s' = stk s ->
  map (rg s') [RBP; RBX; R15; R14; R13; R12] = [rg s RBP; rg s RBX; rg s R15; rg s R14; rg s R13; rg s R12] -> saved s s'.
Proof.
  intros K RG. injection RG as Q1 Q2 Q3 Q4 Q5 Q6. split; auto.
  intros r Hr. cbn in Hr. destruct Hr as [<-|[<-|[<-|[<-|[<-|[<-|[]]]]]]]; congruence.
Qed.

Lemma fp2mul434_c1_ok s :
  let a0 := wat (mem s) (rg s RDI) 0 7 in let a1 := wat (mem s) (rg s RDI) 56 7 in
  let b0 := wat (mem s) (rg s RSI) 0 7 in let b1 := wat (mem s) (rg s RSI) 56 7 in
  Forall word a0 -> Forall word a1 -> Forall word b0 -> Forall word b1 ->
  2 * (valB W a1 + valB W a0 + p434) <= W ^ 7 ->
  let s' := run fp2mul434_c1_asm s in
  saved s s' /\ only_at (rg s RDX) 7 (mem s) (mem s') /\ dmul_post a1 b0 a0 b1 (wat (mem s') (rg s RDX) 0 7).
Proof.
  intros a0 a1 b0 b1 Wa0 Wa1 Wb0 Wb1 HN. cbv zeta. rewrite c1_run.
  assert (N0 : mem s (rg s RSI + 0) = nth 0 b0 0) by reflexivity.
  pose proof (c1_pro_regs s) as Z. fold a1 in Z. rewrite N0 in Z.
  pose proof (c1_pro_ok s) as H. cbv zeta in H. generalize dependent (run c1_pro s).
  intros s1 Z (M1 & RI & RS & RC & K1).
  assert (La0 : length a0 = 7%nat) by apply wat_length. assert (La1 : length a1 = 7%nat) by apply wat_length.
  assert (Lb0 : length b0 = 7%nat) by apply wat_length. assert (Lb1 : length b1 = 7%nat) by apply wat_length.
  assert (Wd : word (nth 0 b0 0)) by (inversion Wb0; assumption).
  destruct (mul_row_ok (nth 0 b0 0) a1 Wd ltac:(discriminate) Wa1) as [WR VR].
  destruct (words_map _ _ _ Z WR) as [Wz Vz]. rewrite VR in Vz.
  pose proof (dbl_ok (mB RDI 56) (mB RDI 0) (mB RSI 0) (mB RSI 56) a1 b0 a0 b1 s1 La1 Lb0 La0 Lb1) as D.
  cbv zeta in D. generalize dependent (run (dbl_code (mB RDI 56) (mB RDI 0) (mB RSI 0) (mB RSI 56)) s1). intros s' D.
  destruct D as (RG & r & Q & M'); auto; try (apply mops_wat; [notin|assumption|now rewrite M1]).
  destruct (RG _ _ _ _ _ _ _ K1) as [K' RG']. clear RG.
  assert (L : length r = 7%nat) by apply Q.
  rewrite RC in M'. rewrite <- M1. destruct (dbl_end s1 s' _ r L M') as [O ->].
  split; [now apply saved_regs|]. split; auto.
Qed.

(** ** fp2mul434_c0_asm, lines 410-473 *)
Definition c0_a : list instr := firstn 28 fp2mul434_c0_asm.
Definition c0_b : list instr := firstn 23 (skipn 28 fp2mul434_c0_asm).
Lemma c0_run s : run fp2mul434_c0_asm s =
  run (dbl_code (mB RDI 0) (mB RDI 56) (mB RSI 0) (mB RCX 0)) (run c0_b (run c0_a s)).
Proof.
  assert (E : fp2mul434_c0_asm = c0_a ++ c0_b ++ dbl_code (mB RDI 0) (mB RDI 56) (mB RSI 0) (mB RCX 0)) by reflexivity.
  now rewrite E, !run_app.
Qed.
Definition swapl (l : list Z) (x : Z) : list Z := firstn 6 l ++ [x].
Lemma c0_a_regs s : let b1 := wat (mem s) (rg s RSI) 56 7 in let s1 := run c0_a s in
  (rg s1 RDI = rg s RDI /\ rg s1 RSI = rg s RSI /\ rg s1 RCX = rg s RDX /\ rg s1 RBX = rg s RBX /\ rg s1 RBP = rg s RBP) /\
  stk s1 = rg s R15 :: rg s R14 :: rg s R13 :: rg s R12 :: stk s /\
  map (rg s1) [R8; R9; R10; R11; R12; R13; R14] =
    subs 0 t434_px8 (swapl b1 (put (rg s RDX) 0 [(nth 0 t434_px8 0 - nth 0 b1 0 - 0) mod W] (mem s) (rg s RSI + 104))).
Proof. repeat split; reflexivity. Qed.
Lemma c0_a_mem s y : mem (run c0_a s) y = put (rg s RDX) 0 [rg (run c0_a s) R8; rg (run c0_a s) R9] (mem s) y.
Proof. unfold c0_a, fp2mul434_c0_asm. cbn [firstn skipn app]. sim_cbn. reflexivity. Qed.
Lemma c0_b_ok s : let c := rg s RCX in let m := mem s in let x := rg s RDI in
  let s1 := run c0_b s in
  (rg s1 RDI = rg s RDI /\ rg s1 RSI = rg s RSI /\ rg s1 RCX = rg s RCX) /\
  stk s1 = rg s RBP :: rg s RBX :: stk s /\
  (forall y, mem s1 y = put c 16 (map (rg s) [R10; R11; R12; R13; R14]) m y) /\
  map (rg s1) zreg = mul_row (put c 16 (map (rg s) [R10]) m (rg s RSI + 0))
    [put c 16 (map (rg s) [R10]) m (x + 0); put c 16 (map (rg s) [R10; R11]) m (x + 8);
     put c 16 (map (rg s) [R10; R11; R12]) m (x + 16); put c 16 (map (rg s) [R10; R11; R12; R13]) m (x + 24);
     put c 16 (map (rg s) [R10; R11; R12; R13; R14]) m (x + 32);
     put c 16 (map (rg s) [R10; R11; R12; R13; R14]) m (x + 40);
     put c 16 (map (rg s) [R10; R11; R12; R13; R14]) m (x + 48)].
Proof.
  intros c m x s1. do 3 (split; [repeat split; reflexivity|]).
  unfold s1, c0_b, fp2mul434_c0_asm. cbn [firstn skipn app]. sim_cbn. rewrite !Z.lxor_nilpotent. reflexivity.
Qed.
(** Seven words at x do not meet the fourteen words at y. *)
Definition clear14 (x y : Z) : Prop := x + 56 <= y \/ y + 112 <= x.
Lemma c0_pro_ok s : let b1 := wat (mem s) (rg s RSI) 56 7 in let e := subs 0 t434_px8 b1 in
  clear14 (rg s RDX) (rg s RDI) -> clear14 (rg s RDX) (rg s RSI) ->
  let s2 := run c0_b (run c0_a s) in
  (rg s2 RDI = rg s RDI /\ rg s2 RSI = rg s RSI /\ rg s2 RCX = rg s RDX) /\
  stk s2 = rg s RBP :: rg s RBX :: rg s R15 :: rg s R14 :: rg s R13 :: rg s R12 :: stk s /\
  (forall y, mem s2 y = put (rg s RDX) 0 e (mem s) y) /\
  map (rg s2) zreg = mul_row (mem s (rg s RSI + 0)) (wat (mem s) (rg s RDI) 0 7).
Proof.
  intros b1 e D1 D2. unfold clear14 in D1, D2. cbv zeta.
  pose proof (c0_a_mem s) as M. pose proof (c0_a_regs s) as H. cbv zeta in H. fold b1 in H.
  generalize dependent (run c0_a s). intros s1 M ((DI & SI & CX & BX & BP) & K & T).
  rewrite put_out in T by (cbn [length]; lia).
  assert (Sw : swapl b1 (mem s (rg s RSI + 104)) = b1) by reflexivity. rewrite Sw in T. fold e in T.
  assert (PE : forall y, put (rg s1 RCX) 16 (map (rg s1) [R10; R11; R12; R13; R14]) (mem s1) y =
    put (rg s RDX) 0 e (mem s) y).
  { intros y. rewrite CX, <- T. cbn [map put].
    destruct (y =? _); auto. destruct (y =? _); auto. destruct (y =? _); auto. destruct (y =? _); auto.
    destruct (y =? _); auto. rewrite M. reflexivity. }
  assert (MO : forall y l, (length l <= 5)%nat -> y + 8 <= rg s RDX \/ rg s RDX + 56 <= y ->
    put (rg s1 RCX) 16 l (mem s1) y = mem s y).
  { intros y l L Hy. rewrite put_out by (rewrite CX; lia). rewrite M, put_out by (cbn [length]; lia). reflexivity. }
  pose proof (c0_b_ok s1) as H. cbv zeta in H. generalize dependent (run c0_b s1).
  intros s2 ((DI2 & SI2 & CX2) & K2 & M2 & Z2).
  split; [split; [congruence|split; congruence]|]. split; [congruence|]. split.
  - intros y. rewrite M2. apply PE.
  - rewrite Z2, !MO by (try (cbn [map length]; lia); rewrite ?DI, ?SI; lia). rewrite DI, SI. reflexivity.
Qed.
Lemma fp2mul434_c0_ok s :
  let a0 := wat (mem s) (rg s RDI) 0 7 in let a1 := wat (mem s) (rg s RDI) 56 7 in
  let b0 := wat (mem s) (rg s RSI) 0 7 in let b1 := wat (mem s) (rg s RSI) 56 7 in
  clear14 (rg s RDX) (rg s RDI) -> clear14 (rg s RDX) (rg s RSI) ->
  Forall word a0 -> Forall word a1 -> Forall word b0 -> Forall word b1 ->
  2 * (valB W a0 + valB W a1 + p434) <= W ^ 7 ->
  let s' := run fp2mul434_c0_asm s in
  saved s s' /\ only_at (rg s RDX) 7 (mem s) (mem s') /\
  dmul_post a0 b0 a1 (subs 0 t434_px8 b1) (wat (mem s') (rg s RDX) 0 7).
Proof.
  intros a0 a1 b0 b1 D1 D2 Wa0 Wa1 Wb0 Wb1 HN. cbv zeta. rewrite c0_run.
  assert (N0 : mem s (rg s RSI + 0) = nth 0 b0 0) by reflexivity.
  pose proof (c0_pro_ok s D1 D2) as H. cbv zeta in H. fold a0 b1 in H. rewrite N0 in H.
  assert (Le : length (subs 0 t434_px8 b1) = 7%nat) by reflexivity.
  assert (We : Forall word (subs 0 t434_px8 b1)) by apply subs_words.
  remember (subs 0 t434_px8 b1) as e eqn:E0. clear E0.
  generalize dependent (run c0_b (run c0_a s)).
  intros s1 ((RI & RS & RC) & K1 & M1 & Z).
  assert (La0 : length a0 = 7%nat) by apply wat_length. assert (La1 : length a1 = 7%nat) by apply wat_length.
  assert (Lb0 : length b0 = 7%nat) by apply wat_length.
  assert (Wd : word (nth 0 b0 0)) by (inversion Wb0; assumption).
  destruct (mul_row_ok (nth 0 b0 0) a0 Wd ltac:(discriminate) Wa0) as [WR VR].
  destruct (words_map _ _ _ Z WR) as [Wz Vz]. rewrite VR in Vz.
  unfold clear14 in D1, D2.
  assert (same : forall x d, x + d + 56 <= rg s RDX \/ rg s RDX + 56 <= x + d ->
    wat (mem s1) x d 7 = wat (mem s) x d 7).
  { intros x d Hx. rewrite <- (put_wat_other (rg s RDX) 0 e (mem s) x d 7) by (rewrite Le; lia).
    apply wat_ext. intros y _. apply M1. }
  assert (Ee : e = wat (put (rg s RDX) 0 e (mem s)) (rg s RDX) 0 7) by (pose proof (put_wat (rg s RDX) e 0 (mem s)) as HH; now rewrite Le in HH).
  pose proof (dbl_ok (mB RDI 0) (mB RDI 56) (mB RSI 0) (mB RCX 0) a0 b0 a1 e s1 La0 Lb0 La1 Le) as D.
  cbv zeta in D. generalize dependent (run (dbl_code (mB RDI 0) (mB RDI 56) (mB RSI 0) (mB RCX 0)) s1). intros s' D.
  destruct D as (RG & r & Q & M'); auto.
  - apply mops_wat; [notin|assumption|apply same; lia].
  - apply mops_wat; [notin|assumption|apply same; lia].
  - apply mops_wat; [notin|assumption|apply same; lia].
  - rewrite Ee. apply mops_wat; [notin|assumption|]. apply wat_ext. intros y _. apply M1.
  - destruct (RG _ _ _ _ _ _ _ K1) as [K' RG']. clear RG.
    assert (L : length r = 7%nat) by apply Q.
    rewrite RC in M'. destruct (dbl_end s1 s' _ r L M') as [O ->].
    split; [now apply saved_regs|]. split; auto.
    intros y Hy. rewrite O by exact Hy. rewrite M1, put_only; auto. intros i Hi. rewrite Le in Hi. specialize (Hy i). lia.
Qed.
(** ** Values *)
Lemma px8_sub b : Forall word b -> length b = 7%nat -> valB W b <= 8 * p434 -> valB W (subs 0 t434_px8 b) = 8 * p434 - valB W b.
Proof.
  intros Wb Lb Hb. assert (B0 : bit 0) by (split; lia).
  assert (W8 : Forall word t434_px8) by (repeat (apply Forall_cons; [split; [discriminate|reflexivity]|]); apply Forall_nil).
  assert (V8 : valB W t434_px8 = 8 * p434) by reflexivity. assert (L8 : length t434_px8 = 7%nat) by reflexivity.
  generalize dependent t434_px8. intros px W8 V8 L8.
  destruct (subc_ok P (Wf_P434 T64) px b (ok_words px L8 W8) (ok_words _ Lb Wb)) as (c & r & E & O & Hc & V).
  change (radix P) with 64 in E. rewrite subc_loop_subs in E by auto. apply (f_equal snd) in E. cbn [snd] in E. rewrite E.
  pose proof (ok_bound P (Wf_P434 T64) r O) as Br.
  change (2 ^ radix P) with W in V, Br. rewrite V8 in V.
  change (par_R P) with (W ^ 7) in V, Br. assert (0 < W ^ 7) by reflexivity.
  generalize dependent p434. generalize dependent (W ^ 7). intros Q; intros.
  assert (c = 0) by nia. subst c. lia.
Qed.
Lemma dmul_small a b c d r : dmul_post a b c d r -> valB W a * valB W b + valB W c * valB W d < W ^ 7 * p434 ->
  0 <= valB W r < 2 * p434 /\ (W ^ 7 * valB W r) mod p434 = (valB W a * valB W b + valB W c * valB W d) mod p434.
Proof.
  intros (_ & _ & [V0 _] & m & Hm & E) H. split.
  - split; auto. assert (m * p434 < W ^ 7 * p434) by (apply Z.mul_lt_mono_pos_r; [reflexivity|lia]).
    apply Z.mul_lt_mono_pos_l with (W ^ 7); [reflexivity|]. rewrite E. lia.
  - rewrite E. apply Z.mod_add. discriminate.
Qed.
Lemma fp2mul434_c1_val s :
  let a0 := wat (mem s) (rg s RDI) 0 7 in let a1 := wat (mem s) (rg s RDI) 56 7 in
  let b0 := wat (mem s) (rg s RSI) 0 7 in let b1 := wat (mem s) (rg s RSI) 56 7 in
  Forall word (a0 ++ a1 ++ b0 ++ b1) ->
  2 * (valB W a0 + valB W a1 + p434) <= W ^ 7 ->
  valB W a0 * valB W b1 + valB W a1 * valB W b0 < W ^ 7 * p434 ->
  let s' := run fp2mul434_c1_asm s in let r := wat (mem s') (rg s RDX) 0 7 in
  saved s s' /\ only_at (rg s RDX) 7 (mem s) (mem s') /\ Forall word r /\ 0 <= valB W r < 2 * p434 /\
  (W ^ 7 * valB W r) mod p434 = (valB W a0 * valB W b1 + valB W a1 * valB W b0) mod p434.
Proof.
  intros a0 a1 b0 b1 HF HN HB. apply Forall_app in HF as [F1 HF]. apply Forall_app in HF as [F2 HF]. apply Forall_app in HF as [F3 F4].
  assert (HN' : 2 * (valB W a1 + valB W a0 + p434) <= W ^ 7) by (rewrite (Z.add_comm (valB W a1)); exact HN).
  destruct (fp2mul434_c1_ok s F1 F2 F3 F4 HN') as (A & B & Q). cbv zeta. split; auto. split; auto.
  fold a0 a1 b0 b1 in Q. destruct (dmul_small _ _ _ _ _ Q) as [Q1 Q2]; [rewrite Z.add_comm; exact HB|].
  split; [apply Q|]. split; auto. rewrite Q2. f_equal. apply Z.add_comm.
Qed.
Lemma fp2mul434_c0_val s :
  let a0 := wat (mem s) (rg s RDI) 0 7 in let a1 := wat (mem s) (rg s RDI) 56 7 in
  let b0 := wat (mem s) (rg s RSI) 0 7 in let b1 := wat (mem s) (rg s RSI) 56 7 in
  clear14 (rg s RDX) (rg s RDI) -> clear14 (rg s RDX) (rg s RSI) ->
  Forall word (a0 ++ a1 ++ b0 ++ b1) ->
  2 * (valB W a0 + valB W a1 + p434) <= W ^ 7 -> valB W b1 <= 8 * p434 ->
  valB W a0 * valB W b0 + valB W a1 * (8 * p434 - valB W b1) < W ^ 7 * p434 ->
  let s' := run fp2mul434_c0_asm s in let r := wat (mem s') (rg s RDX) 0 7 in
  saved s s' /\ only_at (rg s RDX) 7 (mem s) (mem s') /\ Forall word r /\ 0 <= valB W r < 2 * p434 /\
  (W ^ 7 * valB W r) mod p434 = (valB W a0 * valB W b0 - valB W a1 * valB W b1) mod p434.
Proof.
  intros a0 a1 b0 b1 D1 D2 HF HN H8 HB. apply Forall_app in HF as [F1 HF]. apply Forall_app in HF as [F2 HF]. apply Forall_app in HF as [F3 F4].
  destruct (fp2mul434_c0_ok s D1 D2 F1 F2 F3 F4 HN) as (A & B & Q). cbv zeta. split; auto. split; auto.
  fold a0 a1 b0 b1 in Q. pose proof (px8_sub b1 F4 (wat_length _ _ _ _) H8) as E8.
  destruct (dmul_small _ _ _ _ _ Q) as [Q1 Q2]; [rewrite E8; exact HB|]. split; [apply Q|]. split; auto. rewrite Q2, E8.
  replace (valB W a0 * valB W b0 + valB W a1 * (8 * p434 - valB W b1))
    with (valB W a0 * valB W b0 - valB W a1 * valB W b1 + (8 * valB W a1) * p434) by ring.
  apply Z.mod_add. discriminate.
Qed.
