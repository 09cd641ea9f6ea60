(** A check that generator tables are bases of the 2^e2- and 3^e3-torsion of y^2 = x^3 + 6x^2 + x, and its soundness.
    The check is evaluated on pairs of BigZ integers; the y-coordinates are given as witnesses. *)
From Coq Require Import Field Znumtheory.
From Bignums Require Import BigZ.
From Verif Require Import Base BaseP Digits Out Params Fp Wf Fld FpRep FpInst Primality Ops Ec Sidh WordOps FieldOps WordCurve CurveSpec IsogSpec XSpec FldCurve GroupP MultP
  FldIsog XLine Strategy BasisP SidhP WordSim WordSidh Gens FpMisc FpMiscP.
Set Bullet Behavior "Strict Subproofs".
Open Scope Z_scope.

(** ** Bases recognised on the line of x-coordinates *)
Section Fld.
Variable F : fld.
Hypothesis two : (kadd k1 k1 : F) <> k0.
Local Open Scope fld_scope.
Definition kth18 := kth F.
Add Field KF18 : kth18.
Variables A B : F.
Hypothesis HA : A * A <> 4.
Hypothesis HB : B <> 0.
Local Notation on := (on A B). Local Notation padd := (padd A B). Local Notation pmul := (pmul A B).
Notation pmul_on := (pmul_on F two A B HA HB). Notation pmul_mul := (pmul_mul F two A B HA HB).
Notation pmul_add := (pmul_add F two A B HA HB).
Lemma pow_step l e M : on M -> (1 <= e)%nat -> pmul (l ^ e) M = pmul l (pmul (l ^ (e - 1)) M).
Proof. intros H He. rewrite <- pmul_mul by auto. f_equal. replace e with (S (e - 1)) at 1 by lia. reflexivity. Qed.
Lemma basis_two e (M N : point F) (m : F) : (1 <= e)%nat -> on M -> on N ->
  Nat.iter (e - 1) (dblx A) (xof M) = XF m -> m <> 0 -> dblx A (XF m) = XInf -> Nat.iter (e - 1) (dblx A) (xof N) = XF 0 ->
  basis A B 2 e M N /\ pmul (2 ^ (e - 1)) N = Aff 0 0.
Proof.
  intros He HM HN EM Hm Em EN. rewrite (dbl_pt F two A B HA HB) in EM, EN by auto.
  assert (N0 : pmul (2 ^ (e - 1)) N = Aff 0 0) by (apply (zero_pt F A B HB); auto using pmul_on).
  split; auto. split; [auto|]. split; [auto|]. split; [|split; [|split]].
  - rewrite pow_step by auto. apply (xinf F). rewrite (MultP.pmul_2 F A B), <- (dblx_pt F two A B) by auto using pmul_on. now rewrite EM.
  - rewrite pow_step by auto. rewrite N0. apply (dbl00 F A B).
  - rewrite N0. discriminate.
  - intros n E. rewrite N0 in E. rewrite E in EM.
    assert (C : pmul n (Aff 0 0) = Inf \/ pmul n (Aff 0 0) = Aff 0 0).
    { clear. induction n as [|n IH]; [left; reflexivity|]. cbn [CurveSpec.pmul]. destruct IH as [->| ->]; [right; reflexivity|left].
      rewrite <- (MultP.pmul_2 F A B). apply (dbl00 F A B). }
    destruct C as [C|C]; rewrite C in EM; cbn in EM; [discriminate|]. apply Hm. congruence.
Qed.
Lemma basis_three e (M N : point F) (s t : F) : (1 <= e)%nat -> on M -> on N ->
  Nat.iter (e - 1) (tplx A) (xof M) = XF s -> tplx A (XF s) = XInf -> Nat.iter (e - 1) (tplx A) (xof N) = XF t -> tplx A (XF t) = XInf ->
  s <> t -> basis A B 3 e M N.
Proof.
  intros He HM HN EM Em EN En Hst. rewrite (tpl_pt F two A B HA HB) in EM, EN by auto.
  assert (K3 : forall Q r, on Q -> xof Q = XF r -> tplx A (XF r) = XInf -> pmul 3 Q = Inf).
  { intros Q r HQ E0 E. apply (xinf F). rewrite (MultP.pmul_3 F A B).
    rewrite <- (tplx_pt F (k0 : F) (fun x : F => x) (fun _ _ : F => false) (fun _ : F => @nil Z) (fun _ : list Z => (k0 : F)) (fun _ : tape => @NoTape (F * tape)) two A B) by auto. now rewrite E0. }
  split; [auto|]. split; [auto|]. split; [|split; [|split]].
  - rewrite pow_step by auto. eauto using pmul_on.
  - rewrite pow_step by auto. eauto using pmul_on.
  - intros E. rewrite E in EN. discriminate.
  - intros n E. rewrite E in EM. set (Q := pmul (3 ^ (e - 1)) N) in *. assert (HQ : on Q) by (apply pmul_on; auto).
    pose proof (K3 Q t HQ EN En) as Q3.
    assert (C : pmul n Q = Inf \/ pmul n Q = Q \/ pmul n Q = padd Q Q).
    { clear - Q3. induction n as [|n IH]; [left; reflexivity|]. cbn [CurveSpec.pmul]. destruct IH as [->|[->| ->]].
      - right; left. apply (padd_inf_r' F A B).
      - auto.
      - left. now rewrite <- (MultP.pmul_3 F A B). }
    assert (D : xof (padd Q Q) = xof Q).
    { assert (E3 : padd Q Q = neg Q).
      { rewrite (MultP.pmul_3 F A B) in Q3. apply (padd_opp_eq F two A B HA HB); auto using (padd_on F two A B HA HB). }
      rewrite E3. destruct Q; reflexivity. }
    destruct C as [C|[C|C]]; rewrite C in EM; [discriminate| |rewrite D in EM]; rewrite EN in EM; apply Hst; congruence.
Qed.
Lemma x_diff x1 y1 x2 y2 xr : x1 <> x2 -> xr * ((x1 - x2) * (x1 - x2)) = B * ((y1 + y2) * (y1 + y2)) - (A + x1 + x2) * ((x1 - x2) * (x1 - x2)) ->
  xof (padd (Aff x1 y1) (neg (Aff x2 y2))) = XF xr.
Proof.
  intros Hx E. cbn [CurveSpec.padd neg]. destruct (kdec x1 x2) as [|_]; [contradiction|]. cbn [chord xof]. f_equal.
  assert (N : x1 - x2 <> 0) by (intros D; apply Hx; rewrite <- (Radd_0_l (F_R (kth F)) x2), <- D; ring).
  assert (N' : x2 - x1 <> 0) by (intros D; apply N; transitivity (- (x2 - x1)); [ring|rewrite D; ring]).
  apply (mul_cancel F) with ((x1 - x2) * (x1 - x2)); [apply (mul_nz F); auto|]. rewrite E.
  match goal with |- ?a = ?b => change (@eq (K F) a b) end. field. auto.
Qed.
End Fld.

(** ** Arithmetic on pairs of integers *)
Section Big.
Variable p : bigZ.
Definition badd (x y : bcx) : bcx := (BigZ.add (fst x) (fst y), BigZ.add (snd x) (snd y)).
Definition bsub (x y : bcx) : bcx := (BigZ.sub (fst x) (fst y), BigZ.sub (snd x) (snd y)).
Definition bsqr (x : bcx) : bcx :=
  (BigZ.modulo (BigZ.mul (BigZ.add (fst x) (snd x)) (BigZ.sub (fst x) (snd x))) p,
   BigZ.modulo (let t := BigZ.mul (fst x) (snd x) in BigZ.add t t) p).
Definition bis0 (x : bcx) : bool := BigZ.eqb (BigZ.modulo (fst x) p) BigZ.zero && BigZ.eqb (BigZ.modulo (snd x) p) BigZ.zero.
Definition bone : bcx := (BigZ.one, BigZ.zero).
(** doubling and tripling on y^2 = x^3 + 6x^2 + x *)
Definition bdbl (q : bcx * bcx) : bcx * bcx :=
  let '(X, Z) := q in
  let t0 := bsqr (bsub X Z) in let t1 := bsqr (badd X Z) in let d := bsub t1 t0 in
  (bcmul p t0 t1, bcmul p d (badd t0 (badd d d))).
Definition btpl (q : bcx * bcx) : bcx * bcx :=
  let '(X, Z) := q in
  let m := bsqr (bsub X Z) in let q := bsqr (badd X Z) in let m4 := badd (badd m m) (badd m m) in
  let q4 := badd (badd q q) (badd q q) in let q8 := badd q4 q4 in
  let u := bsub (bcmul p m m4) (bcmul p q q8) in let x2 := bsqr X in let x4 := badd (badd x2 x2) (badd x2 x2) in
  let v := bcmul p (bsub (bsub x4 q) m) (bsub q8 m4) in
  (bcmul p (badd X X) (bsqr (badd u v)), bcmul p (badd Z Z) (bsqr (bsub u v))).
Fixpoint biter (n : nat) (f : bcx * bcx -> bcx * bcx) (q : bcx * bcx) : bcx * bcx := match n with O => q | S n => biter n f (f q) end.
(** coordinates of P, Q and the x-coordinate of P - Q *)
Record gdata := mkGd { dxP : bcx; dyP : bcx; dxQ : bcx; dyQ : bcx; dxR : bcx }.
Definition bon (x y : bcx) : bool :=
  let x2 := bsqr x in let x4 := badd x2 x2 in
  bis0 (bsub (bsqr y) (badd (badd (bcmul p x2 x) (badd (badd x4 x4) x4)) x)).
Definition bdiff (d : gdata) : bool :=
  let e := bsub (dxP d) (dxQ d) in let e2 := bsqr e in
  let six := (6%bigZ, BigZ.zero) in
  negb (bis0 e) &&
  bis0 (bsub (bcmul p (dxR d) e2) (bsub (bsqr (badd (dyP d) (dyQ d))) (bcmul p (badd (badd six (dxP d)) (dxQ d)) e2))).
Definition bpoints (d : gdata) : bool := bon (dxP d) (dyP d) && bon (dxQ d) (dyQ d) && bdiff d.
Definition check2 (e : nat) (d : gdata) : bool :=
  let m := biter (e - 1) bdbl (dxP d, bone) in let n := biter (e - 1) bdbl (dxQ d, bone) in
  bpoints d && negb (bis0 (fst m)) && negb (bis0 (snd m)) && bis0 (snd (bdbl m)) && bis0 (fst n) && negb (bis0 (snd n)).
Definition check3 (e : nat) (d : gdata) : bool :=
  let m := biter (e - 1) btpl (dxP d, bone) in let n := biter (e - 1) btpl (dxQ d, bone) in
  bpoints d && negb (bis0 (snd m)) && negb (bis0 (snd n)) && bis0 (snd (btpl m)) && bis0 (snd (btpl n)) &&
  negb (bis0 (bsub (bcmul p (fst m) (snd n)) (bcmul p (fst n) (snd m)))).
End Big.
(** a table entry is the Montgomery form of v *)
Definition entry_ok (P : params) (a : felm) (v : bigZ) : bool :=
  (length a =? nwords P)%nat && forallb (fun x => (0 <=? x) && (x <? 2 ^ radix P)) a &&
  (valB (2 ^ radix P) a =? (BigZ.to_Z v * par_R P) mod par_p P).
Definition entry2_ok (P : params) (a : f2elm) (v : bcx) : bool := entry_ok P (fst a) (fst v) && entry_ok P (snd a) (snd v).
Definition table_ok (P : params) (g : gens (word_ops P)) (d : gdata) : bool :=
  entry2_ok P (gP g) (dxP d) && entry2_ok P (gQ g) (dxQ d) && entry2_ok P (gR g) (dxR d).

Section Sound.
Variable P : params.
Hypothesis HG : FpInst.good P.
Variable bp : bigZ.
Hypothesis Hbp : BigZ.to_Z bp = par_p P.
Local Notation HW := (FpInst.HW P HG). Local Notation Hp := (FpInst.Hp P HG).
Local Notation GF := (GF P HG). Local Notation p := (par_p P).
Definition ph (x : bcx) : GF := (mkF p (BigZ.to_Z (fst x)), mkF p (BigZ.to_Z (snd x))).
Lemma p_pos' : 0 < p. Proof. pose proof (prime_ge_2 _ Hp). lia. Qed.
Lemma mkF_mod z : mkF p (z mod p) = mkF p z. Proof. apply mkF_eq. apply Zmod_mod. Qed.
Local Open Scope fld_scope.
Lemma ph_add x y : ph (badd x y) = ph x + ph y.
Proof. unfold ph, badd; cbn [fst snd]. rewrite !BigZ.spec_add, !mkF_add. reflexivity. Qed.
Lemma ph_sub x y : ph (bsub x y) = ph x - ph y.
Proof. unfold ph, bsub; cbn [fst snd]. rewrite !BigZ.spec_sub, !mkF_sub. reflexivity. Qed.
Lemma ph_mul x y : ph (bcmul bp x y) = ph x * ph y.
Proof.
  unfold ph, bcmul; cbn [fst snd]. rewrite !BigZ.spec_modulo, Hbp, !mkF_mod, BigZ.spec_sub, BigZ.spec_add, !BigZ.spec_mul, mkF_sub, mkF_add, !mkF_mul. reflexivity.
Qed.
Definition fpth9 := Fp_field p Hp.
Add Field FP9 : fpth9.
Lemma ph_sqr x : ph (bsqr bp x) = ph x * ph x.
Proof.
  unfold ph, bsqr; cbn [fst snd]. rewrite !BigZ.spec_modulo, Hbp, !mkF_mod, !BigZ.spec_mul, BigZ.spec_sub, !BigZ.spec_add, !BigZ.spec_mul, !mkF_add, !mkF_mul, mkF_sub, !mkF_add.
  change (@eq (K2 (FP P HW Hp)) (fmul (fadd (mkF p (BigZ.to_Z (fst x))) (mkF p (BigZ.to_Z (snd x)))) (fsub (mkF p (BigZ.to_Z (fst x))) (mkF p (BigZ.to_Z (snd x)))),
    fadd (fmul (mkF p (BigZ.to_Z (fst x))) (mkF p (BigZ.to_Z (snd x)))) (fmul (mkF p (BigZ.to_Z (fst x))) (mkF p (BigZ.to_Z (snd x)))))
   (fsub (fmul (mkF p (BigZ.to_Z (fst x))) (mkF p (BigZ.to_Z (fst x)))) (fmul (mkF p (BigZ.to_Z (snd x))) (mkF p (BigZ.to_Z (snd x)))),
    fadd (fmul (mkF p (BigZ.to_Z (fst x))) (mkF p (BigZ.to_Z (snd x)))) (fmul (mkF p (BigZ.to_Z (snd x))) (mkF p (BigZ.to_Z (fst x)))))).
  apply f_equal2; ring.
Qed.
Lemma ph_one : ph bone = 1. Proof. reflexivity. Qed.
Lemma ph_z x : bis0 bp x = true <-> ph x = 0.
Proof.
  unfold bis0, ph. rewrite Bool.andb_true_iff, !BigZ.spec_eqb, !Z.eqb_eq, !BigZ.spec_modulo, Hbp, BigZ.spec_0. split.
  - intros [E1 E2]. change (@eq (K2 (FP P HW Hp)) (mkF p (BigZ.to_Z (fst x)), mkF p (BigZ.to_Z (snd x))) (mkF p 0, mkF p 0)).
    apply f_equal2; apply mkF_eq; rewrite ?E1, ?E2, Z.mod_0_l; auto; pose proof p_pos'; lia.
  - intros E. change (@eq (K2 (FP P HW Hp)) (mkF p (BigZ.to_Z (fst x)), mkF p (BigZ.to_Z (snd x))) (mkF p 0, mkF p 0)) in E.
    assert (E1 : mkF p (BigZ.to_Z (fst x)) = mkF p 0) by exact (f_equal fst E). assert (E2 : mkF p (BigZ.to_Z (snd x)) = mkF p 0) by exact (f_equal snd E).
    apply mkF_eq in E1, E2. rewrite Z.mod_0_l in E1, E2 by (pose proof p_pos'; lia). auto.
Qed.
Lemma ph_nz x : negb (bis0 bp x) = true <-> ph x <> 0.
Proof. rewrite Bool.negb_true_iff. pose proof (ph_z x) as H. destruct (bis0 bp x); split; intros; try discriminate; auto; [exfalso; apply H0; apply H; auto|]. intros E. apply H in E. discriminate. Qed.
Definition kth19 := kth GF.
Add Field KF19 : kth19.
Local Notation A6 := (A0 GF).

Local Notation two := (two_nz P HG).
Local Notation un := (toF P (vunit P), f0). Local Notation sq := (qsqrt P HW Hp). Local Notation lt := (qlt P HW Hp). Local Notation en := (qenc P HW Hp).
Local Notation de := (dec_val P HW Hp). Local Notation rn := (qrand P HW Hp).
Local Notation O := (fld_ops GF un sq lt en de rn).
Notation HA6 := (HA0 GF two).
Definition prep (m : bcx * bcx) (q : xl GF) : Prop := XSpec.rep (ph (fst m)) (ph (snd m)) q.
Ltac toF_eq := match goal with |- ?a = ?b => change (@eq (K GF) a b) end.
Lemma bdbl_ok m q : prep m q -> prep (bdbl bp m) (dblx A6 q).
Proof.
  destruct m as [X Z]. unfold prep. cbn [fst snd]. intros H.
  pose proof (dbl_rep GF un sq lt en de rn two A6 HA6 (@mkPt O (ph X) (ph Z)) (2 : GF) (1 : GF) q H (one_nz GF)) as D.
  assert (E : (4 * 2 : GF) = (A6 + 2) * 1) by (unfold A0; toF_eq; ring). specialize (D E). unfold repp in D. rewrite (dbl_form GF) in D. cbn [pX pZ] in D.
  cbn [bdbl fst snd]. rewrite !ph_mul, !ph_add, !ph_sub, !ph_sqr, !ph_add, !ph_sub.
  refine (eq_rect _ (fun x => XSpec.rep x _ _) (eq_rect _ (fun z => XSpec.rep _ z _) D _ _) _ _); toF_eq; ring.
Qed.
Lemma btpl_ok m q : prep m q -> prep (btpl bp m) (tplx A6 q).
Proof.
  destruct m as [X Z]. unfold prep. cbn [fst snd]. intros H.
  pose proof (tpl_rep GF un sq lt en de rn two A6 HA6 (@mkPt O (ph X) (ph Z)) (4 : GF) (4 + 4 : GF) (1 : GF) q H (one_nz GF)) as D.
  assert (E1 : (4 : GF) = (A6 - 2) * 1) by (unfold A0; toF_eq; ring). assert (E2 : (4 + 4 : GF) = (A6 + 2) * 1) by (unfold A0; toF_eq; ring).
  specialize (D E1 E2). unfold repp in D. rewrite (tpl_form GF) in D. cbv zeta in D. cbn [pX pZ] in D. unfold FldIsog.sq in D.
  cbn [btpl fst snd]. repeat rewrite ?ph_mul, ?ph_add, ?ph_sub, ?ph_sqr.
  refine (eq_rect _ (fun x => XSpec.rep x _ _) (eq_rect _ (fun z => XSpec.rep _ z _) D _ _) _ _); toF_eq; ring.
Qed.
Lemma biter_ok f g n : (forall m q, prep m q -> prep (f m) (g q)) -> forall m q, prep m q -> prep (biter n f m) (Nat.iter n g q).
Proof.
  intros H. induction n as [|n IH]; intros m q Hm; [exact Hm|]. cbn [biter]. rewrite iter_succ_r. auto.
Qed.
Lemma prep_x x : prep (x, bone) (XF (ph x)).
Proof. unfold prep. cbn [fst snd]. rewrite ph_one. split; [apply (one_nz GF)|toF_eq; ring]. Qed.
Lemma prep_fin m q : prep m q -> ph (snd m) <> 0 -> exists x, q = XF x /\ ph (fst m) = x * ph (snd m).
Proof. destruct q as [|x]; intros [H1 H2] H; [contradiction|eauto]. Qed.
Lemma prep_inf m q : prep m q -> ph (snd m) = 0 -> q = XInf.
Proof. destruct q as [|x]; intros [H1 H2] H; [auto|contradiction]. Qed.
Lemma bon_ok x y : bon bp x y = true -> on A6 (1 : GF) (Aff (ph x) (ph y)).
Proof.
  unfold bon. intros H. apply ph_z in H. repeat rewrite ?ph_mul, ?ph_add, ?ph_sub, ?ph_sqr in H. cbn [on]. unfold fx, A0.
  apply (sub_eq GF). toF_eq. rewrite <- H. ring.
Qed.
Lemma six_ok : ph (6%bigZ, BigZ.zero) = A6.
Proof.
  unfold A0. rewrite <- ph_one. rewrite <- !ph_add. unfold ph. cbn [fst snd badd]. apply f_equal2; apply mkF_eq; f_equal; reflexivity.
Qed.
Lemma bdiff_ok d : bdiff bp d = true ->
  xof (padd A6 (1 : GF) (Aff (ph (dxP d)) (ph (dyP d))) (neg (Aff (ph (dxQ d)) (ph (dyQ d))))) = XF (ph (dxR d)).
Proof.
  unfold bdiff. intros H. apply andb_prop in H as [H1 H2]. apply ph_nz in H1. apply ph_z in H2.
  rewrite ph_sub in H1. repeat rewrite ?ph_mul, ?ph_add, ?ph_sub, ?ph_sqr, ?six_ok in H2. apply (x_diff GF).
  - intros E. apply H1. rewrite E. toF_eq. ring.
  - apply (sub_eq GF). etransitivity; [|exact H2]. toF_eq. ring.
Qed.
Lemma entry_sound a v : entry_ok P a v = true -> ok P a /\ (valB (2 ^ radix P) a <= 2 * p)%Z /\ toF P a = mkF p (BigZ.to_Z v).
Proof.
  unfold entry_ok. intros H. apply andb_prop in H as [H H3]. apply andb_prop in H as [H1 H2]. apply Nat.eqb_eq in H1. apply Z.eqb_eq in H3.
  split; [|split].
  - split; auto. apply Forall_forall. intros x Hx. apply (proj1 (forallb_forall _ _) H2) in Hx. apply andb_prop in Hx as [X1 X2].
    apply Z.leb_le in X1. apply Z.ltb_lt in X2. lia.
  - rewrite H3. pose proof (Z.mod_pos_bound (BigZ.to_Z v * par_R P) p p_pos'). lia.
  - apply (toF_intro P HW Hp). rewrite H3, mkF_mod, mkF_mul. reflexivity.
Qed.
Lemma entry2_sound a v : entry2_ok P a v = true -> rng P a /\ el P HG a = ph v.
Proof.
  unfold entry2_ok. intros H. apply andb_prop in H as [H1 H2]. apply entry_sound in H1 as (O1 & B1 & E1). apply entry_sound in H2 as (O2 & B2 & E2).
  split; [repeat split; auto; try apply O1; apply O2|]. change (@eq (K2 (FP P HW Hp)) (toF P (fst a), toF P (snd a)) (ph v)). rewrite E1, E2. reflexivity.
Qed.
Lemma table_sound g d : table_ok P g d = true -> grng P g /\ el P HG (gP g) = ph (dxP d) /\ el P HG (gQ g) = ph (dxQ d) /\ el P HG (gR g) = ph (dxR d).
Proof.
  unfold table_ok. intros H. apply andb_prop in H as [H H3]. apply andb_prop in H as [H1 H2].
  apply entry2_sound in H1 as [R1 E1]. apply entry2_sound in H2 as [R2 E2]. apply entry2_sound in H3 as [R3 E3]. split; [split; [|split]; auto|auto].
Qed.
Lemma points_sound g d : table_ok P g d = true -> bpoints bp d = true -> exists M N : point GF,
  on A6 (1 : GF) M /\ on A6 (1 : GF) N /\ x_of_basis P HG g M N /\ xof M = XF (ph (dxP d)) /\ xof N = XF (ph (dxQ d)).
Proof.
  intros HT HP. apply table_sound in HT as (_ & E1 & E2 & E3). unfold bpoints in HP. apply andb_prop in HP as [HP H3]. apply andb_prop in HP as [H1 H2].
  exists (Aff (ph (dxP d)) (ph (dyP d))), (Aff (ph (dxQ d)) (ph (dyQ d))). split; [now apply bon_ok|]. split; [now apply bon_ok|]. split; [|split; reflexivity].
  unfold x_of_basis. rewrite E1, E2, E3. split; [reflexivity|]. split; [reflexivity|]. now apply bdiff_ok.
Qed.
Lemma check2_sound e g d : (1 <= e)%nat -> table_ok P g d = true -> check2 bp e d = true -> exists M N : point GF,
  basis A6 (1 : GF) 2 e M N /\ pmul A6 (1 : GF) (2 ^ (e - 1)) N = Aff 0 0 /\ x_of_basis P HG g M N.
Proof.
  intros He HT H. unfold check2 in H. repeat match type of H with (_ && _)%bool = true => apply andb_prop in H as [H ?] end.
  destruct (points_sound g d HT H) as (M & N & HM & HN & HX & XM & XN).
  repeat match goal with H : negb _ = true |- _ => apply ph_nz in H | H : bis0 _ _ = true |- _ => apply ph_z in H end.
  pose proof (biter_ok _ _ (e - 1) bdbl_ok _ _ (prep_x (dxP d))) as RM. pose proof (biter_ok _ _ (e - 1) bdbl_ok _ _ (prep_x (dxQ d))) as RN.
  set (m := biter (e - 1) (bdbl bp) (dxP d, bone)) in *. set (n := biter (e - 1) (bdbl bp) (dxQ d, bone)) in *.
  pose proof RM as RM2. apply bdbl_ok in RM2.
  destruct (prep_fin _ _ RM) as (x & Ex & Ex'); [assumption|]. destruct (prep_fin _ _ RN) as (y & Ey & Ey'); [assumption|].
  assert (y = 0) as ->.
  { match goal with H : ph (fst n) = 0 |- _ => rewrite H in Ey' end. symmetry in Ey'. apply (mul_z GF) in Ey' as [|]; [assumption|contradiction]. }
  assert (Nx : x <> 0) by (intros ->; match goal with H : ph (fst m) <> 0 |- _ => apply H end; rewrite Ex'; toF_eq; ring).
  exists M, N. destruct (basis_two GF two A6 1 HA6 (one_nz GF) e M N x) as [B1 B2]; auto.
  - now rewrite XM.
  - rewrite <- Ex. apply (prep_inf _ _ RM2). assumption.
  - now rewrite XN.
Qed.
Lemma check3_sound e g d : (1 <= e)%nat -> table_ok P g d = true -> check3 bp e d = true -> exists M N : point GF,
  basis A6 (1 : GF) 3 e M N /\ x_of_basis P HG g M N.
Proof.
  intros He HT H. unfold check3 in H. repeat match type of H with (_ && _)%bool = true => apply andb_prop in H as [H ?] end.
  destruct (points_sound g d HT H) as (M & N & HM & HN & HX & XM & XN).
  repeat match goal with H : negb _ = true |- _ => apply ph_nz in H | H : bis0 _ _ = true |- _ => apply ph_z in H end.
  pose proof (biter_ok _ _ (e - 1) btpl_ok _ _ (prep_x (dxP d))) as RM. pose proof (biter_ok _ _ (e - 1) btpl_ok _ _ (prep_x (dxQ d))) as RN.
  set (m := biter (e - 1) (btpl bp) (dxP d, bone)) in *. set (n := biter (e - 1) (btpl bp) (dxQ d, bone)) in *.
  pose proof RM as RM2. apply btpl_ok in RM2. pose proof RN as RN2. apply btpl_ok in RN2.
  destruct (prep_fin _ _ RM) as (x & Ex & Ex'); [assumption|]. destruct (prep_fin _ _ RN) as (y & Ey & Ey'); [assumption|].
  exists M, N. split; auto. apply (basis_three GF two A6 1 HA6 (one_nz GF) e M N x y); auto.
  - now rewrite XM.
  - rewrite <- Ex. apply (prep_inf _ _ RM2). assumption.
  - now rewrite XN.
  - rewrite <- Ey. apply (prep_inf _ _ RN2). assumption.
  - intros ->. match goal with H : ph (bsub _ _) <> 0 |- _ => apply H end. rewrite ph_sub, !ph_mul, Ex', Ey'. toF_eq. ring.
Qed.
Theorem gens_sound gA gB dA dB : table_ok P gA dA = true -> table_ok P gB dB = true -> check2 bp (e2 P) dA = true -> check3 bp (e3 P) dB = true ->
  torsion_gens P HG gA gB.
Proof.
  intros TA TB CA CB. pose proof (wf_e2 P HW). pose proof (wf_e3 P HW).
  destruct (check2_sound (e2 P) gA dA ltac:(lia) TA CA) as (PA & QA & B1 & B2 & B3). destruct (check3_sound (e3 P) gB dB ltac:(lia) TB CB) as (PB & QB & B4 & B5).
  split; [apply (table_sound gA dA TA)|]. split; [apply (table_sound gB dB TB)|]. exists PA, QA, PB, QB. auto.
Qed.
End Sound.
