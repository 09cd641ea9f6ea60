(** Lemmas about the helpers of Base.v. *)
From Verif Require Import Base.

Lemma upd_length {A} i (x : A) l : length (upd i x l) = length l.
Proof. revert i; induction l as [|y l IH]; intros [|i]; cbn [upd length]; auto. Qed.

Lemma nth_upd_same {A} i (x d : A) l : (i < length l)%nat -> nth i (upd i x l) d = x.
Proof.
  revert i; induction l as [|y l IH]; intros [|i] H; cbn [upd nth length] in *; try lia; auto.
  apply IH; lia.
Qed.

Lemma nth_upd_other {A} i j (x d : A) l : i <> j -> nth j (upd i x l) d = nth j l d.
Proof.
  revert i j; induction l as [|y l IH]; intros [|i] [|j] H; cbn [upd nth]; auto; try lia.
Qed.

Lemma upd_app_r {A} (l1 l2 : list A) i x :
  (length l1 <= i)%nat -> upd i x (l1 ++ l2) = l1 ++ upd (i - length l1) x l2.
Proof.
  revert i; induction l1 as [|y l1 IH]; intros i H; cbn [app length] in *.
  - now rewrite Nat.sub_0_r.
  - destruct i as [|i]; [lia|]. cbn [upd]. rewrite IH by lia. reflexivity.
Qed.

Lemma upd_app_l {A} (l1 l2 : list A) i x :
  (i < length l1)%nat -> upd i x (l1 ++ l2) = upd i x l1 ++ l2.
Proof.
  revert i; induction l1 as [|y l1 IH]; intros i H; cbn [app length] in *; [lia|].
  destruct i as [|i]; cbn [upd app]; [reflexivity|]. rewrite IH by lia. reflexivity.
Qed.

(** prefix of length i, extended by the digit written at i *)
Lemma firstn_upd_S {A} i (x : A) l :
  (i < length l)%nat -> firstn (S i) (upd i x l) = firstn i l ++ [x].
Proof.
  revert i; induction l as [|y l IH]; intros [|i] H; cbn [upd firstn length app] in *; try lia; auto.
  rewrite IH by lia. reflexivity.
Qed.

Lemma firstn_upd_le {A} i k (x : A) l : (k <= i)%nat -> firstn k (upd i x l) = firstn k l.
Proof.
  revert i k; induction l as [|y l IH]; intros [|i] [|k] H; cbn [upd firstn]; auto; try lia.
  rewrite IH by lia. reflexivity.
Qed.

Lemma skipn_upd_gt {A} i k (x : A) l : (i < k)%nat -> skipn k (upd i x l) = skipn k l.
Proof.
  revert i k; induction l as [|y l IH]; intros [|i] [|k] H; cbn [upd skipn]; auto; try lia.
  rewrite IH by lia. reflexivity.
Qed.

Lemma valB_app B l1 l2 : valB B (l1 ++ l2) = valB B l1 + B ^ Z.of_nat (length l1) * valB B l2.
Proof.
  induction l1 as [|d l1 IH]; cbn [app valB length].
  - change (Z.of_nat 0) with 0. rewrite Z.pow_0_r. lia.
  - rewrite IH, Nat2Z.inj_succ, Z.pow_succ_r by lia. ring.
Qed.

Lemma digits_app B l1 l2 : digits B (l1 ++ l2) <-> digits B l1 /\ digits B l2.
Proof. unfold digits. apply Forall_app. Qed.

Lemma digits_cons B d l : digits B (d :: l) <-> 0 <= d < B /\ digits B l.
Proof. unfold digits. split; [intros H; inversion H; auto | intros [H1 H2]; constructor; auto]. Qed.

Lemma valB_bound B l : 0 < B -> digits B l -> 0 <= valB B l < B ^ Z.of_nat (length l).
Proof.
  intros HB; induction l as [|d l IH]; intros H; cbn [valB length].
  - change (Z.of_nat 0) with 0. rewrite Z.pow_0_r. lia.
  - apply digits_cons in H as [Hd Hl]. specialize (IH Hl).
    rewrite Nat2Z.inj_succ, Z.pow_succ_r by lia. nia.
Qed.

Lemma valB_inj B l1 l2 :
  0 < B -> digits B l1 -> digits B l2 -> length l1 = length l2 -> valB B l1 = valB B l2 -> l1 = l2.
Proof.
  intros HB. revert l2; induction l1 as [|d l1 IH]; intros [|e l2] H1 H2 HL HV;
    cbn [length valB] in *; try lia; auto.
  apply digits_cons in H1 as [Hd H1]. apply digits_cons in H2 as [He H2].
  assert (d = e /\ valB B l1 = valB B l2) as [-> E].
  { assert (valB B l1 = valB B l2) by nia. split; [nia|assumption]. }
  f_equal. apply IH; auto.
Qed.

Lemma toB_length B n x : length (toB B n x) = n.
Proof. revert x; induction n; intros; cbn [toB length]; auto. Qed.

Lemma toB_digits B n x : 0 < B -> digits B (toB B n x).
Proof.
  intros HB; revert x; induction n as [|n IH]; intros x; cbn [toB]; [constructor|].
  apply digits_cons; split; [apply Z.mod_pos_bound; lia | apply IH].
Qed.

Lemma valB_toB B n x : 0 < B -> valB B (toB B n x) = x mod B ^ Z.of_nat n.
Proof.
  intros HB; revert x; induction n as [|n IH]; intros x; cbn [toB valB].
  - change (Z.of_nat 0) with 0. rewrite Z.pow_0_r, Z.mod_1_r. reflexivity.
  - rewrite IH, Nat2Z.inj_succ, Z.pow_succ_r by lia.
    rewrite Z.rem_mul_r; [lia | lia | apply Z.pow_pos_nonneg; lia].
Qed.

Lemma toB_valB B l : 0 < B -> digits B l -> toB B (length l) (valB B l) = l.
Proof.
  intros HB H. apply valB_inj with (B := B); auto.
  - apply toB_digits; auto.
  - apply toB_length.
  - rewrite valB_toB by auto. apply Z.mod_small. apply valB_bound; auto.
Qed.

Lemma valB_repeat0 B n : valB B (repeat 0 n) = 0.
Proof. induction n; cbn [repeat valB]; lia. Qed.

Lemma digits_repeat0 B n : 0 < B -> digits B (repeat 0 n).
Proof. intros HB; induction n; cbn [repeat]; [constructor | apply digits_cons; split; [lia|auto]]. Qed.

Lemma digits_nth B l i : 0 < B -> digits B l -> 0 <= nth i l 0 < B.
Proof.
  intros HB H. destruct (Nat.lt_ge_cases i (length l)) as [Hi|Hi].
  - unfold digits in H. rewrite Forall_forall in H. apply H. apply nth_In; auto.
  - rewrite nth_overflow by lia. lia.
Qed.

Lemma digits_upd B l i x : 0 <= x < B -> digits B l -> digits B (upd i x l).
Proof.
  intros Hx. revert i; induction l as [|d l IH]; intros [|i] H; cbn [upd]; auto;
    apply digits_cons in H as [Hd H]; apply digits_cons; auto.
Qed.

(** [x mod m] for [0 <= x < 2m] and for [-m <= x < m] *)
Lemma mod_once x m : 0 <= x < 2 * m -> x mod m = if x <? m then x else x - m.
Proof.
  intros H. destruct (Z.ltb_spec x m).
  - apply Z.mod_small; lia.
  - symmetry. apply Z.mod_unique with (q := 1); lia.
Qed.

Lemma mod_neg x m : - m <= x < m -> x mod m = if x <? 0 then x + m else x.
Proof.
  intros H. destruct (Z.ltb_spec x 0).
  - symmetry. apply Z.mod_unique with (q := -1); lia.
  - apply Z.mod_small; lia.
Qed.

Lemma digits_firstn B l k : digits B l -> digits B (firstn k l).
Proof.
  intros H. rewrite <- (firstn_skipn k l) in H. apply digits_app in H. tauto.
Qed.

Lemma digits_skipn B l k : digits B l -> digits B (skipn k l).
Proof.
  intros H. rewrite <- (firstn_skipn k l) in H. apply digits_app in H. tauto.
Qed.

Lemma seq_snoc n k : seq n (S k) = seq n k ++ [(n + k)%nat].
Proof.
  revert n; induction k as [|k IH]; intros n; [cbn; f_equal; lia|].
  change (seq n (S (S k))) with (n :: seq (S n) (S k)). rewrite IH. cbn [seq app].
  do 3 f_equal. lia.
Qed.

Lemma firstn_snoc {A} (d : A) i l :
  (i < length l)%nat -> firstn (S i) l = firstn i l ++ [nth i l d].
Proof.
  revert i; induction l as [|y l IH]; intros [|i] H; cbn [firstn length app nth] in *; try lia; auto.
  rewrite <- IH by lia. reflexivity.
Qed.
