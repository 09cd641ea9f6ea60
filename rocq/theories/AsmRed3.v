(** Montgomery multiplication with the two carry chains on lists of words, for code that keeps a part of the number in memory. *)
From Verif Require Import Base BaseP Asm AsmP AsmRedP.

Local Notation LW l := (W ^ Z.of_nat (length l)) (only parsing).

(** A row d * ms added to zs: c is the carry of adcx, o that of adox; the first n words have the operands of the addition exchanged.
    The last word only takes the carry of adcx. *)
Definition psum (n : nat) (z x : Z) : Z := match n with O => z + x | S _ => x + z end.
Fixpoint prow (n : nat) (d c o : Z) (zs ms : list Z) : list Z :=
  match ms with
  | [] => match zs with z :: _ => [(z + 0 + c) mod W] | [] => [] end
  | m :: ms => match zs with
    | z :: z' :: r =>
      let v := z + (d * m) mod W + c in let u := psum n z' ((d * m) / W) + o in
      v mod W :: prow (pred n) d (v / W) (u / W) (u mod W :: r) ms
    | _ => []
    end
  end.
Definition prow1 (n : nat) (d : Z) (zs ms : list Z) : list Z :=
  match ms, zs with
  | m :: ms, z :: z' :: r =>
      let v := psum n z ((d * m) mod W) + 0 in let u := psum n z' ((d * m) / W) + v / W in
      v mod W :: prow (pred n) d 0 (u / W) (u mod W :: r) ms
  | _, _ => []
  end.
Lemma psum_eq n z x : psum n z x = z + x.
Proof. destruct n; cbn [psum]; ring. Qed.

Lemma prow_ok d : word d -> forall ms n c o zs, Forall word ms -> Forall word zs -> bit c -> bit o -> length zs = S (length ms) ->
  valB W zs + c + W * o + d * valB W ms < LW zs ->
  Forall word (prow n d c o zs ms) /\ length (prow n d c o zs ms) = length zs /\
  valB W (prow n d c o zs ms) = valB W zs + c + W * o + d * valB W ms.
Proof.
  intros Hd. induction ms as [|m ms IH]; intros n c o zs Wm Wz Hc Ho L HB.
  - destruct zs as [|z [|]]; try discriminate. cbn [prow valB length] in *. change (W ^ Z.of_nat 1) with W in HB.
    inversion_clear Wz as [|? ? Hz _]. unfold word, bit in *. pose proof W_pos.
    assert (o = 0) by nia. subst o. rewrite (Z.mod_small (z + 0 + c)) by lia.
    split; [constructor; auto; lia|]. split; auto. ring.
  - destruct zs as [|z [|z' r]]; try discriminate. inversion_clear Wm as [|? ? Hm Wms].
    inversion_clear Wz as [|? ? Hz Wz']. inversion_clear Wz' as [|? ? Hz' Wr].
    destruct (mul_word d m Hd Hm) as (Wl & Wh & Ex). cbn [prow]. cbv zeta. rewrite psum_eq.
    set (lo := (d * m) mod W) in *. set (hi := d * m / W) in *.
    destruct (add_word z lo c Hz Wl Hc) as (Wv & Bv & Ev). destruct (add_word z' hi o Hz' Wh Ho) as (Wu & Bu & Eu).
    set (v := (z + lo + c) mod W) in *. set (cv := (z + lo + c) / W) in *.
    set (u := (z' + hi + o) mod W) in *. set (cu := (z' + hi + o) / W) in *.
    assert (ET : valB W (z :: z' :: r) + c + W * o + d * valB W (m :: ms) =
                 v + W * (valB W (u :: r) + cv + W * cu + d * valB W ms)).
    { cbn [valB]. replace (d * (m + W * valB W ms)) with (lo + W * hi + W * (d * valB W ms)) by (rewrite Ex; ring).
      transitivity ((z + lo + c) + W * ((z' + hi + o) + W * valB W r + d * valB W ms)); [ring|].
      rewrite <- Ev, <- Eu. ring. }
    rewrite ET in HB |- *. cbn [length] in HB, L |- *. rewrite pw_S in HB.
    destruct (IH (pred n) cv cu (u :: r)) as (A & B & C); auto.
    + cbn [length]. apply Z.mul_lt_mono_pos_l with W; [reflexivity|]. unfold word in Wv. lia.
    + split; [constructor; auto|]. cbn [length valB]. rewrite B, C. cbn [length]. auto.
Qed.
Lemma prow1_ok n d ms zs : word d -> ms <> [] -> Forall word ms -> Forall word zs -> length zs = S (length ms) ->
  valB W zs + d * valB W ms < LW zs ->
  Forall word (prow1 n d zs ms) /\ length (prow1 n d zs ms) = length zs /\ valB W (prow1 n d zs ms) = valB W zs + d * valB W ms.
Proof.
  intros Hd NE Wm Wz L HB. destruct ms as [|m ms]; [congruence|].
  destruct zs as [|z [|z' r]]; try discriminate. inversion_clear Wm as [|? ? Hm Wms].
  inversion_clear Wz as [|? ? Hz Wz']. inversion_clear Wz' as [|? ? Hz' Wr].
  destruct (mul_word d m Hd Hm) as (Wl & Wh & Ex). cbn [prow1]. cbv zeta. rewrite !psum_eq.
  set (lo := (d * m) mod W) in *. set (hi := d * m / W) in *. assert (B0 : bit 0) by (split; lia).
  destruct (add_word z lo 0 Hz Wl B0) as (Wv & Bv & Ev).
  set (v := (z + lo + 0) mod W) in *. set (cv := (z + lo + 0) / W) in *.
  destruct (add_word z' hi cv Hz' Wh Bv) as (Wu & Bu & Eu).
  set (u := (z' + hi + cv) mod W) in *. set (cu := (z' + hi + cv) / W) in *.
  assert (ET : valB W (z :: z' :: r) + d * valB W (m :: ms) = v + W * (valB W (u :: r) + 0 + W * cu + d * valB W ms)).
  { cbn [valB]. replace (d * (m + W * valB W ms)) with (lo + W * hi + W * (d * valB W ms)) by (rewrite Ex; ring).
    transitivity ((z + lo + 0) + W * (z' + hi + W * valB W r + d * valB W ms)); [ring|].
    rewrite <- Ev. transitivity (v + W * ((z' + hi + cv) + W * valB W r + d * valB W ms)); [ring|]. rewrite <- Eu. ring. }
  rewrite ET in HB |- *. cbn [length] in HB, L |- *. rewrite pw_S in HB.
  destruct (prow_ok d Hd ms (pred n) 0 cu (u :: r)) as (A & B & C); auto.
  + cbn [length]. apply Z.mul_lt_mono_pos_l with W; [reflexivity|]. unfold word in Wv. lia.
  + split; [constructor; auto|]. cbn [length valB]. rewrite B, C. cbn [length]. auto.
Qed.

(** ** Reduction and rounds *)
Section Red.
Variables (hs : list Z) (zw : nat) (p : Z).
Hypothesis Hh : Forall word hs.
Hypothesis Hhs : hs <> [].
Hypothesis Hp1 : p + 1 = W ^ Z.of_nat (S zw) * valB W hs.
Hypothesis Hp : 0 < p.

(** The number w, its lowest word times p added and divided by 2^64: only the words from zw on change. *)
Definition pred_ (w : list Z) : list Z := firstn zw (tl w) ++ prow1 0 (hd 0 w) (skipn zw (tl w)) hs.

Lemma pred_ok w : Forall word w -> length w = (S zw + S (length hs))%nat -> valB W w + hd 0 w * p < LW w ->
  let r := pred_ w in
  Forall word r /\ length w = S (length r) /\ W * valB W r = valB W w + hd 0 w * p.
Proof.
  intros Ww L HB r. destruct w as [|m w]; [discriminate|]. unfold r, pred_. cbn [hd tl] in *. clear r.
  inversion_clear Ww as [|? ? Wm Wr]. cbn [length] in L, HB. rewrite pw_S in HB.
  set (A := firstn zw w). set (B := skipn zw w). assert (EZ : w = A ++ B) by (symmetry; apply firstn_skipn).
  assert (LA : length A = zw). { unfold A. rewrite firstn_length. lia. }
  assert (LB : length B = S (length hs)). { unfold B. rewrite skipn_length. lia. }
  rewrite EZ in Wr. apply Forall_app in Wr as [WA WB].
  pose proof (valB_nonneg _ WA) as BA. rewrite LA in BA.
  assert (VS : valB W w = valB W A + W ^ Z.of_nat zw * valB W B).
  { rewrite EZ at 1. rewrite valB_app, LA. ring. }
  assert (LL : LW w = W ^ Z.of_nat zw * LW B) by (rewrite EZ at 1; rewrite app_length, LA; apply pw_add).
  rewrite pw_S in Hp1. rewrite LL in HB. set (Q := W ^ Z.of_nat zw) in *. assert (HQ : 0 < Q) by apply pw_pos.
  cbn [valB] in HB |- *. rewrite VS in HB |- *.
  assert (EP : m + W * (valB W A + Q * valB W B) + m * p = W * (valB W A + Q * (valB W B + m * valB W hs))).
  { replace p with (W * Q * valB W hs - 1) by lia. ring. }
  rewrite EP in HB |- *. apply Z.mul_lt_mono_pos_l in HB; [|reflexivity].
  destruct (prow1_ok 0 m hs B) as (W2 & L2 & E2); auto.
  { apply Z.mul_lt_mono_pos_l with Q; auto. lia. }
  split; [apply Forall_app; auto|]. split.
  - rewrite EZ at 1. cbn [length]. rewrite !app_length, L2. reflexivity.
  - rewrite valB_app, E2, LA. fold Q. ring.
Qed.

Variables (ms : list Z).
Hypothesis Wms : Forall word ms.
Hypothesis NEms : ms <> [].
Hypothesis Lms : length ms = (zw + S (length hs))%nat.
Let a := valB W ms.
Hypothesis Ha : a + p <= LW ms.

Definition rnd (n : nat) (b : Z) (acc : list Z) : list Z := pred_ (prow1 n b (acc ++ [0]) ms).

Lemma rnd_ok n b acc : word b -> Forall word acc -> length acc = length ms -> valB W acc < a + p ->
  let r := rnd n b acc in
  Forall word r /\ length r = length ms /\ 0 <= valB W r < a + p /\
  exists m, word m /\ W * valB W r = valB W acc + b * a + m * p.
Proof.
  intros Wb Wa La HV r.
  assert (A0 : 0 <= a) by apply (valB_nonneg _ Wms). pose proof (valB_nonneg _ Wa) as V0.
  assert (VA : valB W (acc ++ [0]) = valB W acc) by (rewrite valB_app; cbn [valB]; ring).
  assert (LL : length (acc ++ [0]) = S (length ms)) by (rewrite app_length; cbn [length]; lia).
  assert (B1 : valB W acc + b * a < W * (a + p)) by (unfold word in Wb; nia).
  assert (B2 : W * (a + p) <= W * LW ms) by (apply Z.mul_le_mono_nonneg_l; [discriminate|auto]).
  destruct (prow1_ok n b ms (acc ++ [0])) as (W1 & L1 & E1); auto.
  { apply Forall_app. split; auto. constructor; auto. split; [lia|reflexivity]. }
  { rewrite LL, pw_S, VA. fold a. lia. }
  rewrite VA in E1. fold a in E1. unfold r, rnd. set (w := prow1 n b (acc ++ [0]) ms) in *.
  assert (Wm : word (hd 0 w)). { destruct w; [cbn in L1; lia|]. now inversion W1. }
  set (m := hd 0 w) in *.
  assert (B3 : valB W w + m * p < W * (a + p)) by (rewrite E1; unfold word in Wm, Wb; nia).
  destruct (pred_ok w) as (W2 & L2 & E2); auto.
  { rewrite L1, LL, Lms. lia. } { fold m. rewrite L1, LL, pw_S. lia. }
  fold m in E2. split; auto. split; [lia|]. pose proof (valB_nonneg _ W2) as [V2 _]. split.
  - split; auto. apply Z.mul_lt_mono_pos_l with W; [reflexivity|]. rewrite E2. lia.
  - exists m. split; auto. rewrite E2, E1. ring.
Qed.

Fixpoint rnds (n : nat) (bs acc : list Z) : list Z := match bs with [] => acc | b :: bs => rnds n bs (rnd n b acc) end.
Lemma rnds_ok n bs : Forall word bs -> forall acc, Forall word acc -> length acc = length ms -> 0 <= valB W acc < a + p ->
  let r := rnds n bs acc in
  Forall word r /\ length r = length ms /\ 0 <= valB W r < a + p /\
  exists m, 0 <= m < LW bs /\ LW bs * valB W r = valB W acc + a * valB W bs + m * p.
Proof.
  induction 1 as [|b bs Wb Wbs IH]; intros acc Wa La HV r; unfold r; cbn [rnds].
  - split; auto. split; auto. split; auto. exists 0. cbn [length valB]. change (W ^ Z.of_nat 0) with 1. split; [lia|ring].
  - destruct (rnd_ok n b acc) as (W1 & L1 & V1 & m & Wm & E1); auto; [lia|].
    destruct (IH (rnd n b acc)) as (W2 & L2 & V2 & m2 & Hm2 & E2); auto.
    split; auto. split; auto. split; auto. exists (m + W * m2). cbn [length]. rewrite pw_S. split.
    + unfold word in Wm. pose proof (pw_pos (length bs)). nia.
    + cbn [valB]. set (r' := rnds n bs (rnd n b acc)) in *.
      transitivity (W * (LW bs * valB W r')); [ring|]. rewrite E2.
      transitivity (W * valB W (rnd n b acc) + W * (a * valB W bs + m2 * p)); [ring|]. rewrite E1. ring.
Qed.

(** The whole multiplication. *)
Lemma pmont_ok n b bs : Forall word (b :: bs) ->
  let r := rnds n bs (pred_ (mul_row b ms)) in
  Forall word r /\ length r = length ms /\ 0 <= valB W r < a + p /\
  exists m, 0 <= m < LW (b :: bs) /\ LW (b :: bs) * valB W r = a * valB W (b :: bs) + m * p.
Proof.
  intros Wb r. inversion_clear Wb as [|? ? Wb0 Wbs].
  destruct (mul_row_ok b ms Wb0 NEms Wms) as [W0 V0]. fold a in V0.
  assert (L0 : length (mul_row b ms) = S (length ms)).
  { destruct ms as [|x l]; [congruence|]. cbn [mul_row length]. f_equal. generalize (b * x / W) 0.
    clear. induction l as [|y l IH]; intros u c; cbn [mul_tl length]; auto. }
  assert (A0 : 0 <= a) by apply (valB_nonneg _ Wms).
  set (w := mul_row b ms) in *. set (m := hd 0 w).
  assert (Wm : word m). { unfold m. destruct w; [cbn in L0; lia|]. now inversion W0. }
  assert (B2 : W * (a + p) <= W * LW ms) by (apply Z.mul_le_mono_nonneg_l; [discriminate|auto]).
  assert (B1 : valB W w + m * p < W * (a + p)) by (rewrite V0; unfold word in Wm, Wb0; nia).
  destruct (pred_ok w) as (W1 & L1 & E1); auto.
  { rewrite L0, Lms. lia. } { fold m. rewrite L0, pw_S. lia. }
  fold m in E1. rewrite V0 in E1. pose proof (valB_nonneg _ W1) as [V1 _].
  destruct (rnds_ok n bs Wbs (pred_ w)) as (W2 & L2 & V2 & m2 & Hm2 & E2); auto.
  { lia. } { split; auto. apply Z.mul_lt_mono_pos_l with W; [reflexivity|]. rewrite E1. lia. }
  fold r in W2, L2, V2, E2. split; auto. split; auto. split; auto. exists (m + W * m2). cbn [length]. rewrite pw_S. split.
  - unfold word in Wm. pose proof (pw_pos (length bs)). nia.
  - cbn [valB]. transitivity (W * (LW bs * valB W r)); [ring|]. rewrite E2.
    transitivity (W * valB W (pred_ w) + W * (a * valB W bs + m2 * p)); [ring|]. rewrite E1. ring.
Qed.
End Red.
